(** C84: calls of predeclared procedures are accepted by the table of the report, with the documented type and constant value. *)
From Verif Require Import Base ArithModel LitModel LitProps AsgModel AsgSpec AsgProps OperModel OperSpec StdModel StdSpec.

Lemma bind_inv2 : forall A B (m : res A) (k : A -> res B) b, bind m k = Ok b -> exists a, m = Ok a /\ k a = Ok b.
Proof. intros A B m k b H. destruct m; cbn in H; try discriminate. eauto. Qed.
Lemma form_no : forall a b, is_form a b = false -> a <> b.
Proof. intros a b H ->. assert (is_form b b = true) by (apply is_form_iff; auto). congruence. Qed.
Lemma comp_no : forall a b, is_comp a b = false -> a <> b.
Proof. intros a b H ->. assert (is_comp b b = true) by (apply is_comp_iff; auto). congruence. Qed.

Section WithTable.
Variable E : env.
Variable P : predecl.
Variable D : std.
Notation T t := (str E t).
Hypothesis TB : table E.
Hypothesis PD : predefined E P D.

Lemma con_t : forall x, con x = true -> constant x.
Proof. intros x H. apply Z.eqb_eq. exact H. Qed.
Lemma con_f : forall x, con x = false -> ~ constant x.
Proof. intros x H C. apply Z.eqb_eq in C. unfold con, is_const in H. unfold acl in C. congruence. Qed.
Lemma bad_t : forall x, bad x = true -> ~ value x.
Proof. intros x H [A B]. unfold bad, not_value in H. apply orb_true_iff in H as [H|H]; apply Z.eqb_eq in H; unfold acl in *; congruence. Qed.
Lemma bad_f : forall x, bad x = false -> value x.
Proof. intros x H. unfold bad, not_value in H. apply orb_false_iff in H as [A B]. apply Z.eqb_neq in A, B. split; auto. Qed.
Lemma var_f : forall x, NotVar x = false -> variable x.
Proof.
  intros x H. unfold NotVar in H. unfold variable. apply andb_false_iff in H as [H|H].
  - left. rewrite Z.geb_leb in H. apply Z.leb_gt in H. exact H.
  - right. apply orb_false_iff in H as [A B]. apply negb_false_iff, Z.eqb_eq in A. split; auto. destruct (avl x) as [c|]; [|discriminate].
    exists c. split; auto. rewrite Z.geb_leb in B. apply Z.leb_gt in B. exact B.
Qed.
Lemma var_t : forall x, NotVar x = true -> ~ variable x.
Proof.
  intros x H V. unfold NotVar in H. apply andb_true_iff in H as [A B]. apply Z.geb_le in A. destruct V as [V|[V (c & C & L)]].
  - lia.
  - rewrite V, Z.eqb_refl, C in B. cbn [negb orb] in B. apply Z.geb_le in B. lia.
Qed.
Lemma variable_value : forall x, variable x -> value x.
Proof. intros x [H|[H _]]; unfold value, Nconst, Ntype, Nproc, Nmop in *; lia. Qed.
Lemma array_t : forall t, is_array E t = true -> array E t.
Proof. intros t H. unfold is_array in H. apply orb_true_iff in H as [H|H]; apply is_comp_iff in H; [left|right]; auto. Qed.
Lemma array_f : forall t, is_array E t = false -> ~ array E t.
Proof. intros t H A. unfold is_array in H. apply orb_false_iff in H as [B C]. apply comp_no in B, C. destruct A; contradiction. Qed.
Ltac refl := repeat match goal with
  | H : is_form ?a ?b = true |- _ => apply is_form_iff in H
  | H : is_form ?a ?b = false |- _ => apply form_no in H
  | H : is_comp ?a ?b = true |- _ => apply is_comp_iff in H
  | H : is_comp ?a ?b = false |- _ => apply comp_no in H
  | H : con _ = true |- _ => apply con_t in H
  | H : con _ = false |- _ => apply con_f in H
  | H : bad _ = true |- _ => apply bad_t in H
  | H : bad _ = false |- _ => apply bad_f in H
  | H : NotVar _ = true |- _ => apply var_t in H
  | H : NotVar _ = false |- _ => apply var_f in H
  | H : is_array _ _ = true |- _ => apply array_t in H
  | H : is_array _ _ = false |- _ => apply array_f in H
  | H : negb _ = true |- _ => apply negb_true_iff in H
  | H : negb _ = false |- _ => apply negb_false_iff in H
  | H : _ && _ = true |- _ => apply andb_true_iff in H as [? ?]
  | H : _ || _ = false |- _ => apply orb_false_iff in H as [? ?]
  | H : _ && _ = false |- _ => apply andb_false_iff in H as [H|H]
  | H : _ || _ = true |- _ => apply orb_true_iff in H as [H|H]
  | H : (_ =? _) = true |- _ => apply Z.eqb_eq in H
  | H : (_ =? _) = false |- _ => apply Z.eqb_neq in H
  | H : (_ <=? _) = true |- _ => apply Z.leb_le in H
  | H : (_ <=? _) = false |- _ => apply Z.leb_gt in H
  | H : (_ <? _) = true |- _ => apply Z.ltb_lt in H
  | H : (_ <? _) = false |- _ => apply Z.ltb_ge in H
  | H : (_ >? _) = _ |- _ => rewrite Z.gtb_ltb in H
  | H : (_ >=? _) = _ |- _ => rewrite Z.geb_leb in H
  | H : Nat.eqb _ _ = true |- _ => apply Nat.eqb_eq in H
  | H : Nat.eqb _ _ = false |- _ => apply Nat.eqb_neq in H
  end.
Ltac ifs H := repeat match type of H with context [if ?b then _ else _] => destruct b eqn:? end.
Ltac iff_goal := repeat match goal with |- context [if ?b then _ else _] => destruct b eqn:? end.

(** Constants of integers. *)
Lemma int_const_ok : forall v, in_int 64 v -> exists n, int_const D v = Ok n /\ sval n = Some v /\ int_type E v (sty n).
Proof.
  intros v H. destruct (C41_smallest v H) as (s & A & B & F & M). unfold int_const. rewrite A. cbn [bind]. eexists. split; [reflexivity|]. split; auto. cbn [sty].
  destruct (d_ityp E P D PD s B) as [X Y]. split; auto. rewrite Y. auto.
Qed.
Lemma int_const_inv : forall v n, in_int 64 v -> int_const D v = Ok n -> sval n = Some v /\ int_type E v (sty n).
Proof. intros v n H A. destruct (int_const_ok v H) as (n' & B & C). rewrite A in B. inversion B; subst. auto. Qed.
Lemma typed_val : forall x t, constant x -> sval (typed x t) = Some (aiv x).
Proof. intros x t C. unfold typed. cbn [sval]. destruct (con x) eqn:Q; auto. apply con_f in Q. contradiction. Qed.
Lemma typed_var : forall x t, ~ constant x -> sval (typed x t) = None.
Proof. intros x t C. unfold typed. cbn [sval]. destruct (con x) eqn:Q; auto. apply con_t in Q. contradiction. Qed.
(** The conversions. *)
Definition converts (x : arg) (t : tid) : Prop :=
  constant x ->
  (sform (T (aty x)) = FInt -> sform (T t) = FInt -> fits (ssize (T t)) (aiv x)) /\
  (sform (T (aty x)) = FInt -> sform (T t) <> FInt -> 0 <= aiv x <= 255) /\
  (real_ E (aty x) -> sform (T t) = FReal -> aovf x = false) /\
  (real_ E (aty x) -> ~ real_ E t -> abig x = false).
Definition converted (x : arg) (t : tid) : option Z :=
  if con x then if in_real (sform (T (aty x))) then if in_real (sform (T t)) then None else Some (afl x) else Some (aiv x) else None.
Lemma real_t : forall t, in_real (sform (T t)) = true -> real_ E t.
Proof. intros t H. unfold in_real in H. apply orb_true_iff in H as [H|H]; apply is_form_iff in H; [left|right]; auto. Qed.
Lemma real_f : forall t, in_real (sform (T t)) = false -> ~ real_ E t.
Proof. intros t H A. unfold in_real in H. apply orb_false_iff in H as [B C]. apply form_no in B, C. destruct A; contradiction. Qed.
Lemma Convert_spec : forall x t n e, good_arg E x -> Convert E x t = Ok (n, e) ->
  (e = [] <-> converts x t) /\ (e = [] -> sty n = t /\ sval n = converted x t).
Proof.
  intros x t n e (G1 & G2 & G3 & G4 & G5) H. unfold Convert in H. unfold converts, converted, frm in *. destruct (con x) eqn:C.
  - apply con_t in C. destruct (is_form (sform (T (aty x))) FInt) eqn:F.
    + apply is_form_iff in F. destruct (G2 C F) as [G21 G22]. assert (IR : in_real (sform (T (aty x))) = false) by (rewrite F; reflexivity). rewrite IR.
      assert (NR : ~ real_ E (aty x)) by (intros [R|R]; congruence).
      destruct (is_form (sform (T t)) FInt) eqn:G; refl.
      * assert (TS : forall s', int_size s' -> ssize (T t) = s' -> s' = ssize (T t)) by auto.
        assert (SI : int_size (ssize (T t))) by (apply (d_sizes E P D PD); auto).
        assert (SX : int_size (ssize (T (aty x)))) by (apply (d_sizes E P D PD); auto).
        destruct (ssize (T (aty x)) >? ssize (T t)) eqn:S.
        -- destruct (C41_smallest _ G21) as (s & A & B & F1 & F2). rewrite A in H. cbn [bind] in H. destruct (s >? ssize (T t)) eqn:Q; injection H as <- <-; refl.
           ++ split; [split; [discriminate|]|discriminate]. intros Z. destruct (Z C) as (Z1 & _). specialize (F2 _ SI (Z1 F G)). lia.
           ++ split; [|intros _; split; [reflexivity|apply typed_val; auto]]. split; auto. intros _ _.
              split; [|split; [intros; contradiction|split; intros; contradiction]]. intros _ _. eapply fits_mono; [|exact F1]. unfold int_size in *. lia.
        -- injection H as <- <-. refl. split; [|intros _; split; [reflexivity|apply typed_val; auto]]. split; auto. intros _ _.
           split; [|split; [intros; contradiction|split; intros; contradiction]]. intros _ _. eapply fits_mono; [|exact G22]. unfold int_size in *. lia.
      * injection H as <- <-. split; [|intros _; split; [reflexivity|apply typed_val; auto]].
        destruct ((0 >? aiv x) || (aiv x >? 255)) eqn:Q; refl.
        -- split; [discriminate|]. intros Z. destruct (Z C) as (_ & Z2 & _). specialize (Z2 F G). lia.
        -- split; [discriminate|]. intros Z. destruct (Z C) as (_ & Z2 & _). specialize (Z2 F G). lia.
        -- split; auto. intros _ _. split; [intros; contradiction|]. split; [intros; lia|]. split; intros; contradiction.
    + destruct (in_real (sform (T (aty x)))) eqn:R.
      * pose proof (real_t _ R) as R'. refl. destruct (in_real (sform (T t))) eqn:RT.
        -- injection H as <- <-. apply real_t in RT. split; [|auto]. destruct (is_form (sform (T t)) FReal && aovf x) eqn:Q.
           ++ refl. split; [discriminate|]. intros Z. destruct (Z C) as (_ & _ & Z3 & _). rewrite Z3 in *; auto. discriminate.
           ++ split; auto. intros _ _. split; [intros; contradiction|]. split; [intros; contradiction|]. split; [|intros; contradiction].
              intros _ K. rewrite K in Q. exact Q.
        -- apply real_f in RT. destruct (abig x) eqn:AB; injection H as <- <-.
           ++ split; [|discriminate]. split; [discriminate|]. intros Z. destruct (Z C) as (_ & _ & _ & Z4). specialize (Z4 R' RT). discriminate.
           ++ split; auto. split; auto. intros _ _. split; [intros; contradiction|]. split; [intros; contradiction|]. split; [intros _ K; destruct RT; left; auto|auto].
      * pose proof (real_f _ R) as R'. refl. injection H as <- <-. split; [|intros _; split; [reflexivity|apply typed_val; auto]].
        split; auto. intros _ _. split; [intros; contradiction|]. split; [intros; contradiction|]. split; intros; contradiction.
  - injection H as <- <-. apply con_f in C. split; [|intros _; split; auto]. split; auto. intros _ Z. contradiction.
Qed.
Lemma Convert_total : forall x t, good_arg E x -> exists r, Convert E x t = Ok r.
Proof.
  intros x t (_ & G2 & _). unfold Convert, frm. destruct (con x) eqn:C; [|eauto]. apply con_t in C. destruct (is_form (sform (T (aty x))) FInt) eqn:F.
  - refl. destruct (G2 C F) as [A _]. destruct (C41_smallest _ A) as (s & B & _). rewrite B. iff_goal; cbn [bind]; eauto.
  - iff_goal; eauto.
Qed.

(** ** One argument *)
Definition exact (f : fct) (xs : list arg) : Prop := forall p e, call E P D f xs = Ok (p, e) ->
  (e = [] -> legal E P D f xs (sty p) (sval p)) /\ ((exists t r, legal E P D f xs t r) -> e = []).
Lemma none_exact : forall f, exact f [].
Proof.
  intros f p e H. unfold call in H.
  assert (NE : e <> []). { destruct f; cbn [StFct plain sty] in H; rewrite ?Nat.eqb_refl in H; cbn [negb] in H; inversion H; subst; discriminate. }
  split; [contradiction|]. intros (t & r & L). exfalso. inversion L.
Qed.
Ltac open1 H := unfold call in H; apply bind_inv2 in H as ([p0 e0] & H0 & H); apply bind_inv2 in H as ([p1 e1] & H1 & H); injection H as <- <-;
  cbn [StPar0] in H0; cbn [StFct] in H1; unfold frm in *.
Ltac inv L := inversion L; subst; try match goal with h : @eq fct _ _ \/ @eq fct _ _ |- _ => destruct h; discriminate end.
Ltac back := intros (t0 & r0 & L); inv L; auto; exfalso; solve [contradiction | congruence | lia | intuition (try contradiction; congruence || lia)].
Ltac folds := unfold folded; match goal with |- context [constant ?x] => destruct (con x) eqn:?; refl; auto end.
Ltac fwd := intros Q; try discriminate Q.
Lemma halt_exact : forall x, exact Halt [x].
Proof.
  intros x p e H. open1 H. injection H0 as <- <-. injection H1 as <- <-. cbn [app]. iff_goal; refl; cbn [app sty sval plain]; (split; [fwd; constructor; auto; lia|back]) || (split; [fwd|back]).
Qed.
Lemma abs_exact : forall x, good_arg E x -> exact Abs [x].
Proof.
  intros x G p e H. open1 H. unfold MOp in H0. fold (bad x) in H0. fold (con x) in H0. fold (aty x) in H0. fold (aiv x) in H0. unfold form_of in H0. fold (aty x) in H0.
  destruct (bad x) eqn:B; [injection H0 as <- <-; injection H1 as <- <-; refl; split; [fwd|back]|].
  destruct (is_form (sform (T (aty x))) FInt || in_real (sform (T (aty x)))) eqn:N; injection H0 as <- <-; injection H1 as <- <-; cbn [app sty sval].
  - assert (NU : numeric E (aty x)) by (apply orb_true_iff in N as [N|N]; [left; apply is_form_iff; auto|right; apply real_t; auto]). clear N. rewrite app_nil_r. iff_goal; refl.
    + split; [fwd|]. intros (t0 & r0 & L). inv L. exfalso. match goal with h : ~ (_ /\ _) |- _ => apply h; split; [assumption|split; assumption] end.
    + split; [|auto]. fwd. constructor; auto. intros (C1 & C2 & C3). contradiction.
    + split; [|auto]. fwd. constructor; auto. intros (C1 & C2 & C3). contradiction.
    + split; [|auto]. fwd. constructor; auto. intros (C1 & C2 & C3). contradiction.
  - apply orb_false_iff in N as [N1 N2]. apply real_f in N2. refl. split; [fwd|]. intros (t0 & r0 & L). inv L. exfalso. match goal with h : numeric _ _ |- _ => destruct h; auto end.
Qed.
Lemma cap_exact : forall x, exact Cap [x].
Proof.
  intros x p e H. open1 H. unfold MOp in H0. fold (bad x) in H0. fold (con x) in H0. fold (aty x) in H0. unfold form_of in H0. fold (aty x) in H0.
  ifs H0; injection H0 as <- <-; injection H1 as <- <-; refl; cbn [app sty sval]; split; try (fwd; constructor; auto); back.
Qed.
Lemma odd_exact : forall x, exact Odd [x].
Proof.
  intros x p e H. open1 H. unfold MOp in H0. fold (bad x) in H0. fold (con x) in H0. fold (aty x) in H0. unfold form_of in H0. fold (aty x) in H0.
  ifs H0; injection H0 as <- <-; injection H1 as <- <-; refl; cbn [app sty sval]; split; try (fwd; constructor; auto); back.
Qed.
(** Results of conversions. *)
Lemma converted_int : forall x t, ~ real_ E (aty x) -> folded x (aiv x) (converted x t).
Proof.
  intros x t R. unfold converted, folded. destruct (con x) eqn:C; refl; auto. destruct (in_real (sform (T (aty x)))) eqn:Q; auto. apply real_t in Q. contradiction.
Qed.
Lemma converted_real : forall x t, real_ E (aty x) -> ~ real_ E t -> folded x (afl x) (converted x t).
Proof.
  intros x t R N. unfold converted, folded. destruct (con x) eqn:C; refl; auto.
  destruct (in_real (sform (T (aty x)))) eqn:Q; [|apply real_f in Q; contradiction]. destruct (in_real (sform (T t))) eqn:Q2; auto. apply real_t in Q2. contradiction.
Qed.
Lemma converted_none : forall x t, real_ E (aty x) -> real_ E t -> converted x t = None.
Proof.
  intros x t R N. unfold converted. destruct (con x) eqn:C; refl; auto.
  destruct (in_real (sform (T (aty x)))) eqn:Q; [|apply real_f in Q; contradiction]. destruct (in_real (sform (T t))) eqn:Q2; auto. apply real_f in Q2. contradiction.
Qed.
Ltac nr := let R := fresh in intros [R|R]; congruence.
Ltac conv := match goal with h : Convert E ?x ?t = Ok (?n, ?e), g : good_arg E ?x |- _ =>
  let a := fresh "A" in let b := fresh "B" in let c := fresh "SB" in let d := fresh "VB" in
  destruct (Convert_spec x t n e g h) as [a b] end.
Lemma ord_exact : forall x, good_arg E x -> exact Ord [x].
Proof.
  intros x G p e H. open1 H. injection H1 as <- <-. rewrite app_nil_r. ifs H0; refl.
  - injection H0 as <- <-. split; [fwd|back].
  - conv. assert (CV : converts x (inttyp D)).
    { intros C. split; [intros; congruence|]. split; [intros; congruence|]. split; intros R; exfalso; revert R; nr. }
    split; [|intros _; apply A; auto]. intros ->. destruct (B eq_refl) as [-> ->]. constructor; auto. apply converted_int. nr.
  - injection H0 as <- <-. split; [fwd|back].
Qed.
Lemma entier_exact : forall x, good_arg E x -> exact Entier [x].
Proof.
  intros x G p e H. open1 H. injection H1 as <- <-. rewrite app_nil_r. pose proof (d_lint E P D PD) as DL. assert (NL : ~ real_ E (linttyp D)) by nr. ifs H0; refl.
  - injection H0 as <- <-. split; [fwd|back].
  - match goal with h : in_real _ = true |- _ => apply real_t in h; rename h into R end. conv. split.
    + intros ->. destruct (B eq_refl) as [-> ->]. constructor; auto; [|apply converted_real; auto]. intros C. destruct (proj1 A eq_refl C) as (_ & _ & _ & Z). auto.
    + intros (t0 & r0 & L). inv L. apply A. intros C. split; [intros F; exfalso; destruct R; congruence|]. split; [intros F; exfalso; destruct R; congruence|].
      split; [intros; congruence|]. auto.
  - match goal with h : in_real _ = false |- _ => apply real_f in h end. injection H0 as <- <-. split; [fwd|back].
Qed.
Lemma chr_exact : forall x, good_arg E x -> exact Chr [x].
Proof.
  intros x G p e H. open1 H. injection H1 as <- <-. rewrite app_nil_r. pose proof (t_char E TB) as DC. ifs H0; refl.
  - injection H0 as <- <-. split; [fwd|back].
  - destruct G as [G _]. contradiction.
  - conv. split.
    + intros ->. destruct (B eq_refl) as [-> ->]. constructor; auto; [|apply converted_int; nr]. intros C. destruct (proj1 A eq_refl C) as (_ & Z & _). apply Z; auto. congruence.
    + intros (t0 & r0 & L). inv L. apply A. intros C. split; [intros; congruence|]. split; [auto|]. split; intros R; exfalso; revert R; nr.
  - injection H0 as <- <-. split; [fwd|back].
Qed.
Lemma shorter_int : forall t, sform (T (shorter E D t)) = FInt.
Proof. intros t. destruct PD. unfold shorter. iff_goal; auto. destruct (d_ityp 1); auto. Qed.
Lemma longer_int : forall t, sform (T (longer E D t)) = FInt.
Proof. intros t. destruct PD. unfold longer. iff_goal; auto. destruct (d_ityp 8); auto. Qed.
Lemma longer_ge : forall t, sform (T t) = FInt -> ssize (T t) <= ssize (T (longer E D t)).
Proof. intros t F. destruct PD. unfold longer. pose proof (d_sizes t F). iff_goal; refl; try lia. destruct (d_ityp 8) as [_ ->]; lia. Qed.
Lemma shortened_iff : forall t u, shortened E D t u <-> u = shorter E D t.
Proof.
  intros t u. unfold shorter. split.
  - intros H. destruct H; unfold sz in *; repeat match goal with |- context [?a >? ?b] => destruct (Z.gtb_spec a b) end; auto; lia.
  - intros ->. repeat match goal with |- context [?a >? ?b] => destruct (Z.gtb_spec a b) end; [apply sh_long|apply sh_int|apply sh_short|apply sh_least]; unfold sz; lia.
Qed.
Lemma lengthened_iff : forall t u, lengthened E D t u <-> u = longer E D t.
Proof.
  intros t u. unfold longer. split.
  - intros H. destruct H; unfold sz in *; repeat match goal with |- context [?a <? ?b] => destruct (Z.ltb_spec a b) end; auto; lia.
  - intros ->. repeat match goal with |- context [?a <? ?b] => destruct (Z.ltb_spec a b) end; [apply lo_short|apply lo_int|apply lo_long|apply lo_most]; unfold sz; lia.
Qed.
Lemma short_exact : forall x, good_arg E x -> exact Short [x].
Proof.
  intros x G p e H. open1 H. injection H1 as <- <-. rewrite app_nil_r. pose proof (shorter_int (aty x)) as SI. pose proof (d_real E P D PD) as DR. ifs H0; refl.
  - injection H0 as <- <-. split; [fwd|back].
  - conv. split.
    + intros ->. destruct (B eq_refl) as [-> ->]. apply l_short; auto; [apply shortened_iff; auto| |apply converted_int; nr]. intros C. destruct (proj1 A eq_refl C) as (Z & _). auto.
    + intros (t0 & r0 & L). inv L; [|congruence]. match goal with Q : shortened _ _ _ _ |- _ => apply shortened_iff in Q; subst end. apply A. intros C. split; [auto|]. split; [intros; congruence|]. split; intros R; exfalso; revert R; nr.
  - conv. assert (RX : real_ E (aty x)) by (right; auto). assert (RT : real_ E (realtyp P)) by (left; auto). split.
    + intros ->. destruct (B eq_refl) as [-> ->]. rewrite converted_none by auto. apply l_short_real; auto. intros C. destruct (proj1 A eq_refl C) as (_ & _ & Z & _). auto.
    + intros (t0 & r0 & L). inv L; [congruence|]. apply A. intros C. split; [intros; congruence|]. split; [intros; congruence|]. split; [auto|intros; contradiction].
  - injection H0 as <- <-. split; [fwd|back].
Qed.
Lemma long_exact : forall x, good_arg E x -> exact Long [x].
Proof.
  intros x G p e H. open1 H. injection H1 as <- <-. rewrite app_nil_r. pose proof (longer_int (aty x)) as SI. pose proof (d_lreal E P D PD) as DR. pose proof (d_lint E P D PD) as DL. ifs H0; refl.
  - injection H0 as <- <-. split; [fwd|back].
  - conv. assert (CV : converts x (longer E D (aty x))).
    { intros C. split; [|split; [intros; congruence|split; intros R; exfalso; revert R; nr]]. intros F _. destruct G as (_ & G & _). destruct (G C F) as [_ G'].
      eapply fits_mono; [|exact G']. pose proof (longer_ge _ F). pose proof (d_sizes E P D PD _ F). lia. }
    split; [|intros _; apply A; auto]. intros ->. destruct (B eq_refl) as [-> ->]. apply l_long; auto; [apply lengthened_iff; auto|apply converted_int; nr].
  - conv. assert (RX : real_ E (aty x)) by (left; auto). assert (RT : real_ E (lrltyp P)) by (right; auto).
    assert (CV : converts x (lrltyp P)).
    { intros C. split; [intros; congruence|]. split; [intros; congruence|]. split; [intros; congruence|intros; contradiction]. }
    split; [|intros _; apply A; auto]. intros ->. destruct (B eq_refl) as [-> ->]. rewrite converted_none by auto. apply l_long_real; auto.
  - conv. assert (CV : converts x (linttyp D)).
    { intros C. split; [intros; congruence|]. split; [intros; congruence|]. split; intros R; exfalso; revert R; nr. }
    split; [|intros _; apply A; auto]. intros ->. destruct (B eq_refl) as [-> ->]. apply l_long_char; auto. apply converted_int; nr.
  - injection H0 as <- <-. split; [fwd|back].
Qed.
Lemma limits_in : forall s, s = 1 \/ s = 2 \/ s = 4 \/ s = 8 -> in_int 64 (2 ^ (8 * s - 1) - 1) /\ in_int 64 (- 2 ^ (8 * s - 1)) /\ 1 <= 2 ^ (8 * s - 1).
Proof. intros s [->|[->|[->| ->]]]; vm_compute; repeat split; discriminate. Qed.
Lemma min_exact : forall x, good_arg E x -> exact Min [x].
Proof.
  intros x G p e H. open1 H. injection H1 as <- <-. rewrite app_nil_r. destruct (acl x =? Ntype) eqn:N; refl; [|injection H0 as <- <-; split; [fwd|back]].
  destruct (sform (T (aty x))) eqn:F; try (injection H0 as <- <-; split; [fwd; first [apply l_min_set; assumption|apply l_max_set; assumption|constructor; assumption]|back]).
  apply bind_inv2 in H0 as (v & V & H0). apply bind_inv2 in H0 as (n & C & H0). injection H0 as <- <-. split; auto. intros _.
  pose proof (d_sizes E P D PD _ F) as DS. rewrite (proj2 (C41_limits _ DS)) in V. injection V as <-.
  destruct (limits_in _ DS) as (_ & L & L1). destruct (int_const_inv _ _ L C) as [-> IT]. apply l_min_int; auto; unfold fits; lia.
Qed.
Lemma max_exact : forall x, good_arg E x -> exact Max [x].
Proof.
  intros x G p e H. open1 H. injection H1 as <- <-. rewrite app_nil_r. destruct (acl x =? Ntype) eqn:N; refl; [|injection H0 as <- <-; split; [fwd|back]].
  destruct (sform (T (aty x))) eqn:F; try (injection H0 as <- <-; split; [fwd; first [apply l_min_set; assumption|apply l_max_set; assumption|constructor; assumption]|back]).
  apply bind_inv2 in H0 as (v & V & H0). apply bind_inv2 in H0 as (n & C & H0). injection H0 as <- <-. split; auto. intros _.
  pose proof (d_sizes E P D PD _ F) as DS. rewrite (proj1 (C41_limits _ DS)) in V. injection V as <-.
  destruct (limits_in _ DS) as (L & _ & L1). destruct (int_const_inv _ _ L C) as [-> IT]. apply l_max_int; auto; unfold fits; lia.
Qed.
Lemma size_exact : forall x, good_arg E x -> exact Size [x].
Proof.
  intros x G p e H. open1 H. injection H1 as <- <-. rewrite app_nil_r. destruct (negb (acl x =? Ntype)) eqn:N; refl.
  - apply bind_inv2 in H0 as (n & C & H0). injection H0 as <- <-. split; [fwd|back].
  - destruct (match sform (T (aty x)) with FByte | FBool | FChar | FInt | FReal | FLReal | FSet | FPointer | FProc => true | _ => false end) eqn:F; cbn [orb] in H0.
    + apply bind_inv2 in H0 as (n & C & H0). injection H0 as <- <-. destruct (int_const_inv _ _ (d_szof E P D PD (aty x)) C) as [V IT].
      split; auto. intros _. rewrite V. constructor; auto. left. destruct (sform (T (aty x))); try discriminate; exact I.
    + destruct (is_comp (scomp (T (aty x))) Array || is_comp (scomp (T (aty x))) Record_) eqn:Q; apply bind_inv2 in H0 as (n & C & H0); injection H0 as <- <-.
      * destruct (int_const_inv _ _ (d_szof E P D PD (aty x)) C) as [V IT]. split; auto. intros _. rewrite V. constructor; auto. right. refl; auto.
      * refl. split; [fwd|]. intros (t0 & r0 & L). inv L. exfalso. match goal with h : scalar _ \/ _ |- _ => destruct h as [h|[h|h]]; try contradiction end.
        destruct (sform (T (aty x))); try discriminate; contradiction.
Qed.
Lemma assert_exact : forall x, good_arg E x -> exact Assert [x].
Proof.
  intros x G p e H. open1 H. cbn [Nat.eqb] in H1. injection H1 as <- <-. cbn [sty sval plain].
  destruct (bad x) eqn:B; [injection H0 as <- <-; refl; split; [fwd|back]|]. destruct (negb (is_form (sform (T (aty x))) FBool)) eqn:F; [injection H0 as <- <-; refl; split; [fwd|back]|].
  assert (M : fst (MOp E P MNot (ao x) false) = []).
  { unfold MOp, form_of. fold (bad x). fold (aty x). rewrite B. apply negb_false_iff in F. rewrite F. reflexivity. }
  rewrite M in H0. remember (1 - aiv x) as w eqn:W in H0. injection H0 as <- <-. refl. cbn [app]. unfold assert_. cbn [sval]. destruct G as (_ & _ & _ & G & _). destruct (con x) eqn:C; refl.
  - destruct (negb (w =? 0)) eqn:Z; refl.
    + split; [fwd|]. intros (t0 & r0 & L). inv L. exfalso. destruct (G C F) as [Z0|Z0]; [auto|lia].
    + split; auto. intros _. apply l_assert; auto. intros [_ Z0]. lia.
  - split; auto. intros _. apply l_assert; auto. intros [Z _]. contradiction.
Qed.
Lemma inc_exact : forall f x, f = Inc \/ f = Dec -> exact f [x].
Proof.
  intros f x F p e H. destruct F as [-> | ->]; open1 H; cbn [Nat.eqb] in H1; injection H0 as <- <-; injection H1 as <- <-; cbn [sty sval plain]; rewrite app_nil_r; iff_goal; refl;
    first [solve [split; [fwd|intros (t0 & r0 & L); inversion L; subst; congruence]] | split; auto; intros _; apply l_inc; auto].
Qed.
(** NEW with any number of lengths. *)
Lemma notyp_closed : scomp (T (notyp D)) <> DynArr.
Proof.
  intros Q. pose proof (d_notyp E P D PD). assert (sform (T (notyp D)) = FComp) by (apply (t_comp E TB); rewrite Q; discriminate). congruence.
Qed.
Lemma new_first : forall x p e, StPar0 E P D New x = Ok (p, e) ->
  (e = [] <-> variable x /\ aro x = false /\ sform (T (aty x)) = FPointer /\ exists b, sbase (T (aty x)) = Some b /\ scomp (T b) <> Basic) /\
  (e = [] -> forall b, sbase (T (aty x)) = Some b -> p = plain (if is_comp (scomp (T b)) DynArr then b else notyp D)).
Proof.
  intros x p e H. cbn [StPar0] in H. unfold frm in H. destruct (NotVar x) eqn:N; [injection H as <- <-; refl; split; [split; [discriminate|intros (A & _); contradiction]|discriminate]|].
  destruct (is_form (sform (T (aty x))) FPointer) eqn:F; [|injection H as <- <-; refl; split; [split; [discriminate|intros (_ & _ & A & _); contradiction]|discriminate]].
  apply bind_inv2 in H as (b & SB & H). unfold deref in SB. destruct (sbase (T (aty x))) as [b'|] eqn:SX; [|discriminate]. injection SB as ->. apply is_form_iff in F. apply var_f in N.
  destruct (is_comp (scomp (T b)) Record_ || is_array E b) eqn:Q; injection H as <- <-.
  - assert (NB : scomp (T b) <> Basic) by (refl; [congruence|match goal with h : array _ _ |- _ => destruct h; congruence end]).
    destruct (aro x) eqn:RO.
    + split; [|discriminate]. split; [discriminate|]. intros (_ & A & _). discriminate.
    + split; [|intros _ b0 B0; injection B0 as <-; reflexivity]. split; auto. intros _. eauto 10.
  - split; [|intros A; apply app_eq_nil in A as [_ A]; discriminate]. split; [intros A; apply app_eq_nil in A as [_ A]; discriminate|].
    intros (_ & _ & _ & b0 & B0 & NB). injection B0 as <-. exfalso. apply orb_false_iff in Q as [Q1 Q2]. apply comp_no in Q1. apply array_f in Q2. apply Q2.
    unfold array. destruct (scomp (T b)); auto; contradiction.
Qed.
Lemma lengths_root : forall b ns, lengths E D (if is_comp (scomp (T b)) DynArr then b else notyp D) ns <-> lengths E D b ns.
Proof.
  intros b ns. destruct (is_comp (scomp (T b)) DynArr) eqn:Q; [tauto|]. apply comp_no in Q. pose proof notyp_closed. split; intros L; inversion L; subst; try contradiction; constructor; auto.
Qed.
Lemma new_step : forall x t p e, (StPar1 E P D New (plain t) x = Ok (p, e) \/ exists n, StParN E D New (plain t) x n = Ok (p, e)) ->
  (e = [] -> exists c, p = plain c /\ scomp (T t) = DynArr /\ sbase (T t) = Some c /\ length_arg E D x) /\
  (scomp (T t) = DynArr -> length_arg E D x -> e = []).
Proof.
  intros x t p e H. cbn [StPar1 StParN] in H. unfold frm in H. cbn [sty plain] in H.
  destruct (bad x) eqn:B; [assert (e = [126]) by (destruct H as [H|[n H]]; congruence); subst; split; [discriminate|]; intros _ (A & _); apply bad_t in B; contradiction|].
  apply bad_f in B. destruct (is_comp (scomp (T t)) DynArr) eqn:DY; cbn [negb] in H.
  2: { assert (e = [64]) by (destruct H as [H|[n H]]; congruence); subst; split; [discriminate|]. apply comp_no in DY. intros A. contradiction. }
  apply is_comp_iff in DY. destruct (is_form (sform (T (aty x))) FInt) eqn:F.
  - assert (K : exists c, deref (sbase (T t)) = Ok c /\ p = plain c /\ e = if con x && ((aiv x <=? 0) || (aiv x >? maxidx D)) then [63] else []).
    { destruct H as [H|[n H]]; apply bind_inv2 in H as (c & C & H); injection H as <- <-; eauto. }
    destruct K as (c & C & -> & ->). unfold deref in C. destruct (sbase (T t)) as [c'|] eqn:SX; [|discriminate]. injection C as ->. apply is_form_iff in F.
    destruct (con x && ((aiv x <=? 0) || (aiv x >? maxidx D))) eqn:Q.
    + split; [discriminate|]. intros _ (_ & _ & A). refl; specialize (A ltac:(assumption)); lia.
    + split; auto. intros _. exists c. split; [reflexivity|]. split; [assumption|]. split; [reflexivity|]. split; [assumption|]. split; [assumption|]. intros CX; apply andb_false_iff in Q as [Q|Q]; [apply con_f in Q; contradiction|refl; lia].
  - assert (K : e = [111]). { destruct H as [H|[n H]]; [apply bind_inv2 in H as (c & C & H)|]; congruence. } subst. apply form_no in F. split; [discriminate|]. intros _ (_ & A & _). contradiction.
Qed.
Lemma new_last : forall t n p e, (1 <= n)%nat -> StFct E D New (plain t) n = Ok (p, e) -> p = plain (notyp D) /\ (e = [] <-> scomp (T t) <> DynArr).
Proof.
  intros t n p e N H. cbn [StFct sty plain] in H. destruct (Nat.eqb t (notyp D)) eqn:Q; cbn [negb] in H; injection H as <- <-; refl.
  - subst. split; auto. assert (L : (n <? 1)%nat = false) by (apply Nat.ltb_ge; lia). rewrite L. pose proof notyp_closed. tauto.
  - split; auto. destruct (is_comp (scomp (T t)) DynArr) eqn:C; refl; split; auto; try discriminate; contradiction.
Qed.
Lemma new_rest : forall xs t n p e m p' e', (1 <= n)%nat -> rest E D New (plain t) n xs = Ok (p, e, m) -> StFct E D New p m = Ok (p', e') ->
  (e ++ e' = [] -> p' = plain (notyp D)) /\ (e ++ e' = [] <-> lengths E D t xs).
Proof.
  induction xs as [|x xs IH]; intros t n p e m p' e' N H K; cbn [rest] in H.
  - injection H as <- <- <-. cbn [app]. destruct (new_last _ _ _ _ N K) as [-> A]. split; auto. rewrite A. split; [intros; constructor; auto|]. intros L; inversion L; auto.
  - apply bind_inv2 in H as ([p1 e1] & S1 & H). apply bind_inv2 in H as ([[p2 e2] m2] & S2 & H). injection H as <- <- <-.
    destruct (new_step x t p1 e1) as [A B]; [eauto|]. rewrite <- app_assoc. split.
    + intros Z. apply app_eq_nil in Z as [Z1 Z2]. destruct (A Z1) as (c & -> & _). apply (IH c (S n) p2 e2 m2 p' e'); auto.
    + split.
      * intros Z. apply app_eq_nil in Z as [Z1 Z2]. destruct (A Z1) as (c & -> & C1 & C2 & C3). econstructor; eauto. apply (IH c (S n) p2 e2 m2 p' e'); auto.
      * intros L. inversion L; subst. assert (e1 = []) by auto. subst. destruct (A eq_refl) as (c' & -> & _ & C2 & _). cbn [app].
        apply (IH c' (S n) p2 e2 m2 p' e'); auto. congruence.
Qed.
Lemma new_exact : forall x xs, exact New (x :: xs).
Proof.
  intros x xs p e H. unfold call in H. destruct xs as [|y xs].
  - apply bind_inv2 in H as ([p0 e0] & H0 & H). apply bind_inv2 in H as ([p1 e1] & H1 & H). injection H as <- <-. destruct (new_first _ _ _ H0) as [A B]. split.
    + intros Z. apply app_eq_nil in Z as [Z1 Z2]. destruct (proj1 A Z1) as (A1 & A2 & A3 & b & A4 & A5). rewrite (B Z1 b A4) in H1.
      destruct (new_last _ _ _ _ (le_n 1) H1) as [-> L]. eapply l_new; eauto. apply lengths_root. constructor. apply L; auto.
    + intros (t & r & L). inv L. assert (e0 = []) by (apply A; eauto 10). subst. match goal with h : sbase _ = Some _ |- _ => rewrite (B eq_refl _ h) in H1 end.
      destruct (new_last _ _ _ _ (le_n 1) H1) as [-> L']. cbn [app]. apply L'. match goal with h : lengths _ _ _ _ |- _ => apply lengths_root in h; inversion h; auto end.
  - apply bind_inv2 in H as ([p0 e0] & H0 & H). apply bind_inv2 in H as ([p1 e1] & H1 & H). apply bind_inv2 in H as ([[p2 e2] n] & H2 & H).
    apply bind_inv2 in H as ([p3 e3] & H3 & H). injection H as <- <-. destruct (new_first _ _ _ H0) as [A B]. split.
    + intros Z. apply app_eq_nil in Z as [Z1 Z]. apply app_eq_nil in Z as [Z2 Z3]. destruct (proj1 A Z1) as (A1 & A2 & A3 & b & A4 & A5). rewrite (B Z1 b A4) in H1.
      destruct (new_step _ _ _ _ (or_introl H1)) as [C _]. destruct (C Z2) as (c & -> & C1 & C2 & C3).
      destruct (new_rest _ _ _ _ _ _ _ _ (le_S 1 1 (le_n 1)) H2 H3) as [P1 P2]. rewrite (P1 Z3). eapply l_new; eauto. apply lengths_root. econstructor; eauto. apply P2; auto.
    + intros (t & r & L). inv L. assert (e0 = []) by (apply A; eauto 10). subst. match goal with h : sbase _ = Some _ |- _ => rewrite (B eq_refl _ h) in H1 end. cbn [app].
      match goal with h : lengths _ _ _ _ |- _ => apply lengths_root in h; inversion h; subst end. destruct (new_step _ _ _ _ (or_introl H1)) as [C C'].
      assert (e1 = []) by auto. subst. destruct (C eq_refl) as (c' & -> & _ & C2 & _). cbn [app]. apply (new_rest _ _ _ _ _ _ _ _ (le_S 1 1 (le_n 1)) H2 H3). congruence.
Qed.
(** A call with too few arguments. *)
Lemma two_exact : forall f x, In f [Incl; Excl; Copy; Ash; Lsh; Rot; Get; Put; GetReg; PutReg; Bit; Val; SysNew; Move] -> exact f [x].
Proof.
  intros f x F p e H. unfold call in H. apply bind_inv2 in H as ([p0 e0] & _ & H). apply bind_inv2 in H as ([p1 e1] & H1 & H). injection H as <- <-.
  assert (NE : e1 <> []). { repeat (destruct F as [<-|F]; [cbn [StFct] in H1; inversion H1; discriminate|]). destruct F. }
  split; [intros Z; apply app_eq_nil in Z as [_ Z]; contradiction|]. intros (t & r & L). exfalso.
  repeat (destruct F as [<-|F]; [inversion L; try match goal with h : _ = _ \/ _ = _ |- _ => destruct h; discriminate end|]). destruct F.
Qed.
Lemma len_one : forall x, good_arg E x -> value x -> exact Len [x].
Proof.
  intros x G V p e H. open1 H. injection H0 as <- <-. cbn [Nat.eqb node sty six] in H1. destruct (negb (is_array E (aty x))) eqn:A; refl.
  - split.
    + intros Z. apply app_eq_nil in Z as [Z _]. discriminate.
    + intros (t & r & L). exfalso. inv L; match goal with h : lenarg _ _ _ _ _ _ |- _ => inversion h; subst end; match goal with h : dimension _ _ _ _ |- _ => inversion h; subst; contradiction end.
  - cbn [app]. destruct (is_comp (scomp (T (aty x))) DynArr) eqn:DY; refl.
    + injection H1 as <- <-. split; auto. intros _. cbn [sty sval]. eapply l_len_open; eauto. constructor. constructor. auto.
    + apply bind_inv2 in H1 as (n & C & H1). injection H1 as <- <-. split; auto. intros _. destruct A as [A|A]; [|contradiction].
      destruct (int_const_inv _ _ (d_len E P D PD _) C) as [-> IT]. eapply l_len_fix; eauto. constructor. constructor. left. auto.
Qed.

(** ** Two arguments *)
Ltac open2 H := unfold call in H; apply bind_inv2 in H as ([p0 e0] & H0 & H); apply bind_inv2 in H as ([p1 e1] & H1 & H); cbn [rest bind] in H;
  apply bind_inv2 in H as ([p2 e2] & H2 & H); injection H as <- <-; cbn [StPar0] in H0; cbn [StPar1] in H1; cbn [StFct Nat.eqb] in H2; unfold frm in *.
Lemma single_exact : forall f x y xs, In f [Halt; Abs; Cap; Ord; Entier; Odd; Min; Max; Chr; Short; Long; Size] -> exact f (x :: y :: xs).
Proof.
  intros f x y xs F p e H. unfold call in H. apply bind_inv2 in H as ([p0 e0] & _ & H). apply bind_inv2 in H as ([p1 e1] & H1 & H). apply bind_inv2 in H as ([[p2 e2] n] & _ & H).
  apply bind_inv2 in H as ([p3 e3] & _ & H). injection H as <- <-.
  assert (NE : e1 <> []). { repeat (destruct F as [<-|F]; [cbn [StPar1] in H1; inversion H1; discriminate|]). destruct F. }
  split; [intros Z; apply app_eq_nil in Z as [_ Z]; apply app_eq_nil in Z as [Z _]; contradiction|]. intros (t & r & L). exfalso.
  repeat (destruct F as [<-|F]; [inv L|]). destruct F.
Qed.
Lemma many_exact : forall f x y z xs, f <> New -> f <> Move -> exact f (x :: y :: z :: xs).
Proof.
  intros f x y z xs F1 F2 p e H. unfold call in H. apply bind_inv2 in H as ([p0 e0] & _ & H). apply bind_inv2 in H as ([p1 e1] & H1 & H). apply bind_inv2 in H as ([[p2 e2] n] & H2 & H).
  apply bind_inv2 in H as ([p3 e3] & _ & H). injection H as <- <-. cbn [rest] in H2. apply bind_inv2 in H2 as ([p4 e4] & H4 & H2). apply bind_inv2 in H2 as ([[p5 e5] n5] & H5 & H2). injection H2 as <- <- <-.
  assert (NE : e4 <> []). { destruct f; try contradiction; cbn [StParN] in H4; inversion H4; discriminate. }
  split; [intros Z; apply app_eq_nil in Z as [_ Z]; apply app_eq_nil in Z as [_ Z]; apply app_eq_nil in Z as [Z _]; apply app_eq_nil in Z as [Z _]; contradiction|].
  intros (t & r & L). exfalso. inv L; try contradiction; match goal with h : lenarg _ _ _ _ _ _ |- _ => inversion h end.
Qed.
Lemma address_spec : forall x n e, good_arg E x -> address E D x = Ok (n, e) -> (e = [] <-> adr E D x).
Proof.
  intros x n e G H. unfold address, frm in H. unfold adr. destruct (bad x) eqn:B; [injection H as <- <-; refl; split; [discriminate|tauto]|]. apply bad_f in B.
  destruct (con x && is_form (sform (T (aty x))) FInt && (ssize (T (aty x)) <? ssize (T (adrtyp D)))) eqn:Q.
  - refl. conv. pose proof (d_adr E P D PD) as DA. assert (CV : converts x (adrtyp D)).
    { intros C. split; [|split; [intros; congruence|split; intros R; exfalso; revert R; nr]]. intros F _. destruct G as (_ & G & _). destruct (G C F) as [_ G'].
      eapply fits_mono; [|exact G']. pose proof (d_sizes E P D PD _ F). lia. }
    split; [intros _; split; auto|intros _; apply A; auto].
  - destruct (negb ((is_form (sform (T (aty x))) FPointer || is_form (sform (T (aty x))) FInt) && (ssize (T (aty x)) =? adrsz D))) eqn:R; injection H as <- <-.
    + split; [discriminate|]. intros [_ [(C1 & C2 & C3)|(C1 & C2)]]; exfalso.
      * assert (K : con x && is_form (sform (T (aty x))) FInt && (ssize (T (aty x)) <? ssize (T (adrtyp D))) = true).
        { apply andb_true_iff. split; [apply andb_true_iff; split; [apply Z.eqb_eq; exact C1|apply is_form_iff; auto]|apply Z.ltb_lt; auto]. } congruence.
      * apply negb_true_iff in R. apply andb_false_iff in R as [R|R]; [apply orb_false_iff in R as [R1 R2]; apply form_no in R1, R2; tauto|apply Z.eqb_neq in R; contradiction].
    + split; [|auto]. intros _. split; auto. right. apply negb_false_iff, andb_true_iff in R as [R1 R2]. apply Z.eqb_eq in R2. split; auto.
      apply orb_true_iff in R1 as [R1|R1]; apply is_form_iff in R1; auto.
Qed.
Ltac nils := repeat match goal with h : _ ++ _ = [] |- _ => apply app_eq_nil in h as [? ?]; subst end.
Lemma move_exact : forall x y xs, good_arg E x -> good_arg E y -> exact Move (x :: y :: xs).
Proof.
  intros x y xs Gx Gy p e H. unfold call in H. apply bind_inv2 in H as ([p0 e0] & H0 & H). apply bind_inv2 in H as ([p1 e1] & H1 & H). apply bind_inv2 in H as ([[p2 e2] n] & H2 & H).
  apply bind_inv2 in H as ([p3 e3] & H3 & H). injection H as <- <-. cbn [StPar0] in H0. cbn [StPar1] in H1. apply bind_inv2 in H1 as ([q1 f1] & H1 & HE). injection HE as <- <-.
  pose proof (address_spec _ _ _ Gx H0) as A. pose proof (address_spec _ _ _ Gy H1) as B. destruct xs as [|z [|w ws]]; cbn [rest bind] in H2.
  - injection H2 as <- <- <-. cbn [StFct] in H3. change (Nat.ltb 2 3) with true in H3. injection H3 as <- <-.
    split; [intros Z; nils; discriminate|]. intros (t & r & L). exfalso. inv L.
  - cbn [StParN Nat.eqb bind] in H2. unfold frm in H2. injection H2 as <- <- <-. cbn [StFct] in H3. change (Nat.ltb 3 3) with false in H3. injection H3 as <- <-. cbn [sty sval plain].
    rewrite !app_nil_r. destruct (bad z) eqn:BZ; [|destruct (is_form (sform (T (aty z))) FInt) eqn:FZ]; refl.
    + split; [intros Z; nils; discriminate|]. intros (t & r & L). exfalso. inv L. contradiction.
    + rewrite app_nil_r. split.
      * intros Z; nils. constructor; tauto.
      * intros (t & r & L). inv L. rewrite (proj2 A), (proj2 B) by auto. reflexivity.
    + split; [intros Z; nils; discriminate|]. intros (t & r & L). exfalso. inv L. contradiction.
  - cbn [StParN Nat.eqb bind] in H2. apply bind_inv2 in H2 as ([[p5 e5] n5] & H5 & H2). apply bind_inv2 in H5 as ([[p6 e6] n6] & H6 & H5). injection H5 as <- <- <-. injection H2 as <- <- <-.
    split; [intros Z; nils; discriminate|]. intros (t & r & L). exfalso. inv L.
Qed.
Lemma incn_exact : forall f x n, f = Inc \/ f = Dec -> good_arg E x -> good_arg E n -> exact f [x; n].
Proof.
  intros f x n F Gx Gn p e H.
  assert (K : exists e0 e1 e2, e = e0 ++ e1 ++ e2 /\ e2 = [] /\ sty p = notyp D /\ sval p = None /\
    e0 = (if NotVar x then [112] else if negb (is_form (sform (T (aty x))) FInt) then [111] else if aro x then [76] else []) /\
    (exists p1, StPar1 E P D Inc (node x) n = Ok (p1, e1))).
  { destruct F as [-> | ->]; open2 H; injection H0 as <- <-; (assert (Q : sty p1 = notyp D /\ sval p1 = None) by
     (ifs H1; try (apply bind_inv2 in H1 as ([q1 f1] & _ & H1)); injection H1 as <- <-; auto)); injection H2 as <- <-; destruct Q; eauto 15. }
  destruct K as (e0 & e1 & e2 & -> & -> & -> & -> & EV & p1 & H1). rewrite app_nil_r. cbn [StPar1 node sty] in H1. unfold frm in H1.
  assert (LX : e0 = [] <-> variable x /\ sform (T (aty x)) = FInt /\ aro x = false).
  { subst e0. iff_goal; refl; split; auto; try discriminate; intros (C1 & C2 & C3); try contradiction; congruence. }
  assert (LN : sform (T (aty x)) = FInt -> (e1 = [] <-> value n /\ sform (T (aty n)) = FInt /\
     (constant n /\ fits (ssize (T (aty x))) (aiv n) \/ ~ constant n /\ ssize (T (aty n)) <= ssize (T (aty x))))).
  { intros FX. assert (FX' : is_form (sform (T (aty x))) FInt = true) by (apply is_form_iff; auto). rewrite FX' in H1. destruct (bad n) eqn:B; [injection H1 as <- <-; refl; split; [discriminate|tauto]|]. apply bad_f in B.
    destruct (Nat.eqb (aty n) (aty x)) eqn:TE; cbn [negb] in H1; refl.
    - injection H1 as <- <-. split; auto. intros _. rewrite TE. split; auto. split; auto. destruct (con n) eqn:C; refl; [left|right; split; auto; lia]. split; auto.
      destruct Gn as (_ & G & _). rewrite <- TE. apply G; auto. congruence.
    - destruct (is_form (sform (T (aty n))) FInt) eqn:FN; cbn [andb] in H1; refl; [|injection H1 as <- <-; split; [discriminate|tauto]].
      destruct (con n) eqn:C; cbn [orb] in H1; refl.
      + apply bind_inv2 in H1 as ([q1 f1] & H1 & HE). injection HE as <- <-. conv. rewrite A. split.
        * intros CV. split; auto. split; auto. left. split; auto. apply CV; auto.
        * intros (_ & _ & [[_ L]|[L _]]); [|contradiction]. intros _. split; auto. split; [intros; congruence|split; intros R; exfalso; revert R; nr].
      + destruct (ssize (T (aty n)) <=? ssize (T (aty x))) eqn:SZ; refl.
        * apply bind_inv2 in H1 as ([q1 f1] & H1 & HE). injection HE as <- <-. conv. rewrite A. split; [intros _; split; auto|intros _ CN; contradiction].
        * injection H1 as <- <-. split; [discriminate|]. intros (_ & _ & [[L _]|[_ L]]); [contradiction|lia]. }
  split.
  - intros Z. apply app_eq_nil in Z as [Z1 Z2]. destruct (proj1 LX Z1) as (A1 & A2 & A3). destruct (proj1 (LN A2) Z2) as (B1 & B2 & B3). apply l_incn; auto.
  - intros (t & r & L). assert (K : variable x /\ sform (T (aty x)) = FInt /\ aro x = false /\ value n /\ sform (T (aty n)) = FInt /\
     (constant n /\ fits (ssize (T (aty x))) (aiv n) \/ ~ constant n /\ ssize (T (aty n)) <= ssize (T (aty x)))).
    { destruct F as [-> | ->]; inversion L; subst; try match goal with h : @eq fct _ _ \/ @eq fct _ _ |- _ => destruct h; discriminate end; tauto. }
    destruct K as (A1 & A2 & A3 & B). rewrite (proj2 LX), (proj2 (LN A2)) by auto. reflexivity.
Qed.
Lemma incl_exact : forall f s x, f = Incl \/ f = Excl -> good_arg E s -> good_arg E x -> exact f [s; x].
Proof.
  intros f s x F Gs Gx p e H.
  assert (K : exists e0 e1, e = e0 ++ e1 /\ sty p = notyp D /\ sval p = None /\
    e0 = (if NotVar s then [112] else if negb (is_form (sform (T (aty s))) FSet) then [111] else if aro s then [76] else []) /\
    (e0 = [] -> e1 = if bad x then [126] else if is_form (sform (T (aty x))) FInt then if con x && ((0 >? aiv x) || (aiv x >=? ssize (T (aty s)) * 8)) then [202] else [] else [111])).
  { destruct F as [-> | ->]; open2 H; injection H1 as <- <-; injection H2 as <- <-; rewrite app_nil_r; eexists; eexists; (split; [reflexivity|]); (split; [reflexivity|]); (split; [reflexivity|]);
    destruct (NotVar s) eqn:N; [injection H0 as <- <-; split; [reflexivity|discriminate] | |injection H0 as <- <-; split; [reflexivity|discriminate] | ];
    destruct (negb (is_form (sform (T (aty s))) FSet)) eqn:FS; injection H0 as <- <-; (split; [reflexivity|]); try discriminate; intros _; reflexivity. }
  destruct K as (e0 & e1 & -> & -> & -> & E0 & E1).
  assert (LX : e0 = [] <-> variable s /\ sform (T (aty s)) = FSet /\ aro s = false).
  { subst e0. clear E1. iff_goal; refl; split; auto; try discriminate; intros (C1 & C2 & C3); try contradiction; congruence. }
  assert (LN : e0 = [] -> (e1 = [] <-> value x /\ sform (T (aty x)) = FInt /\ (constant x -> 0 <= aiv x < 8 * ssize (T (aty s))))).
  { intros Z. rewrite (E1 Z). destruct (bad x) eqn:B; [refl; split; [discriminate|tauto]|]. apply bad_f in B. destruct (is_form (sform (T (aty x))) FInt) eqn:FX; [|refl; split; [discriminate|tauto]].
    destruct (con x && ((0 >? aiv x) || (aiv x >=? ssize (T (aty s)) * 8))) eqn:Q.
    - split; [discriminate|]. intros (_ & _ & A). refl; specialize (A ltac:(assumption)); lia.
    - split; auto. intros _. split; auto. split; [apply is_form_iff; auto|]. intros C. apply andb_false_iff in Q as [Q|Q]; refl; [contradiction|lia]. }
  split.
  - intros Z. apply app_eq_nil in Z as [Z1 Z2]. destruct (proj1 LX Z1) as (A1 & A2 & A3). destruct (proj1 (LN Z1) Z2) as (B1 & B2 & B3). apply l_incl; auto.
  - intros (t & r & L). assert (K : variable s /\ sform (T (aty s)) = FSet /\ aro s = false /\ value x /\ sform (T (aty x)) = FInt /\ (constant x -> 0 <= aiv x < 8 * ssize (T (aty s)))).
    { destruct F as [-> | ->]; inversion L; subst; try match goal with h : @eq fct _ _ \/ @eq fct _ _ |- _ => destruct h; discriminate end; tauto. }
    destruct K as (A1 & A2 & A3 & B). assert (Z : e0 = []) by (apply LX; auto). rewrite (proj2 (LN Z)) by auto. rewrite Z. reflexivity.
Qed.

Lemma down_spec : forall n t l u, down E n t = Ok (l, u) ->
  (l = 0%nat -> array E u -> dimension E t n u) /\ (forall v, dimension E t n v -> l = 0%nat /\ v = u /\ array E u).
Proof.
  induction n as [|n IH]; intros t l u H; cbn [down] in H.
  - injection H as <- <-. split; [intros _ A; constructor; auto|]. intros v L. inversion L; subst. auto.
  - destruct (is_array E t) eqn:A; refl.
    + apply bind_inv2 in H as (b & B & H). unfold deref in B. destruct (sbase (T t)) as [b'|] eqn:SB; [|discriminate]. injection B as ->. destruct (IH _ _ _ H) as [I1 I2]. split.
      * intros L AU. econstructor; eauto.
      * intros v L. inversion L; subst. apply I2. congruence.
    + injection H as <- <-. split; [discriminate|]. intros v L. inversion L; subst. contradiction.
Qed.
Lemma len_two : forall x n, good_arg E x -> value x -> good_arg E n -> exact Len [x; n].
Proof.
  intros x n G V Gn p e H. open2 H. injection H0 as <- <-. change (Nat.ltb 2 2) with false in H2. injection H2 as <- <-. rewrite app_nil_r. cbn [node sty six] in H1.
  assert (BK : forall u, lenarg E P D x [n] u -> constant n /\ sform (T (aty n)) = FInt /\ 0 <= aiv n /\ ssize (T (aty n)) = 1 /\ dimension E (aty x) (Z.to_nat (aiv n)) u) by (intros u L; inversion L; auto).
  assert (LG : forall t r, legal E P D Len [x; n] t r -> exists u, lenarg E P D x [n] u) by (intros t r L; inv L; eauto).
  assert (AR : forall k u, dimension E (aty x) k u -> array E (aty x)) by (intros k u L; inversion L; auto).
  destruct (negb (is_form (sform (T (aty n))) FInt) || negb (con n)) eqn:C.
  - injection H1 as <- <-. split; [intros Z; nils; discriminate|]. intros (t & r & L). exfalso. destruct (LG _ _ L) as (u & LU). destruct (BK _ LU) as (B1 & B2 & _). refl; contradiction.
  - apply orb_false_iff in C as [C1 C2]. refl. destruct (ssize (T (aty n)) =? 1) eqn:SZ; refl.
    2: { injection H1 as <- <-. split; [intros Z; nils; discriminate|]. intros (t & r & L). exfalso. destruct (LG _ _ L) as (u & LU). destruct (BK _ LU) as (_ & _ & _ & B4 & _). contradiction. }
    apply bind_inv2 in H1 as ([l u] & DW & H1). destruct (aiv n >=? 0) eqn:NN.
    2: { injection DW as <- <-. cbn [Nat.eqb negb orb] in H1. injection H1 as <- <-. split; [intros Z; nils; discriminate|]. intros (t & r & L). exfalso. destruct (LG _ _ L) as (u & LU). destruct (BK _ LU) as (_ & _ & B3 & _). refl. lia. }
    refl. destruct (down_spec _ _ _ _ DW) as [D1 D2]. destruct (negb (Nat.eqb l 0) || negb (is_array E u)) eqn:Q.
    + injection H1 as <- <-. split; [intros Z; nils; discriminate|]. intros (t & r & L). exfalso. destruct (LG _ _ L) as (v & LU). destruct (BK _ LU) as (_ & _ & _ & _ & B5).
      destruct (D2 _ B5) as (K1 & K2 & K3). refl; contradiction.
    + apply orb_false_iff in Q as [Q1 Q2]. refl. assert (DM : dimension E (aty x) (Z.to_nat (aiv n)) u) by auto. pose proof (AR _ _ DM) as AX.
      assert (e0 : (if negb (is_array E (aty x)) then [131] else []) = []). { destruct (is_array E (aty x)) eqn:IA; refl; [reflexivity|contradiction]. } rewrite e0. cbn [app].
      assert (LA : lenarg E P D x [n] u) by (constructor; auto).
      destruct (is_comp (scomp (T u)) DynArr) eqn:DY; refl.
      * injection H1 as <- <-. split; auto. intros _. cbn [sty sval]. eapply l_len_open; eauto.
      * apply bind_inv2 in H1 as (q & IC & H1). injection H1 as <- <-. split; auto. intros _. destruct Q2 as [Q2|Q2]; [|contradiction].
        destruct (int_const_inv _ _ (d_len E P D PD _) IC) as [-> IT]. eapply l_len_fix; eauto.
Qed.
Lemma chars_spec : forall x b, chars E x = Ok b -> (b = true <-> text E x).
Proof.
  intros x b H. unfold chars in H. unfold text. destruct (is_array E (aty x)) eqn:A; refl.
  - apply bind_inv2 in H as (c & C & H). injection H as <-. unfold deref in C. destruct (sbase (T (aty x))) as [c'|] eqn:SB; [|discriminate]. injection C as ->.
    rewrite is_form_iff. split; [intros F; split; eauto|]. intros (_ & d & F1 & F2). congruence.
  - injection H as <-. split; [discriminate|tauto].
Qed.
Lemma copy_exact : forall x v, exact Copy [x; v].
Proof.
  intros x v p e H. open2 H. change (Nat.ltb 2 2) with false in H2. injection H2 as <- <-. rewrite app_nil_r.
  assert (LX : e0 = [] <-> constant x /\ sform (T (aty x)) = FChar \/ value x /\ (text E x \/ sform (T (aty x)) = FString)).
  { destruct (con x && is_form (sform (T (aty x))) FChar) eqn:C; [injection H0 as <- <-; refl; tauto|].
    destruct (bad x) eqn:B.
    - injection H0 as <- <-. split; [discriminate|]. intros [[C1 C2]|[C1 _]]; [|refl; contradiction]. exfalso. apply andb_false_iff in C as [C|C]; refl; contradiction.
    - apply bind_inv2 in H0 as (c & CH & H0). injection H0 as <- <-. apply chars_spec in CH. apply bad_f in B. assert (NC : ~ (constant x /\ sform (T (aty x)) = FChar)) by (intros [C1 C2]; apply andb_false_iff in C as [C|C]; refl; contradiction).
      clear C. destruct c; cbn [negb andb]; [split; auto; intros _; right; split; auto; left; apply CH; auto|].
      destruct (is_form (sform (T (aty x))) FString) eqn:FS; cbn [negb]; refl; [tauto|]. split; [discriminate|]. intros [K|[_ [K|K]]]; try contradiction. apply CH in K. discriminate. }
  assert (LV : (e1 = [] <-> variable v /\ text E v /\ aro v = false) /\ p1 = plain (notyp D)).
  { destruct (NotVar v) eqn:N; [injection H1 as <- <-; refl; split; auto; split; [discriminate|tauto]|]. apply bind_inv2 in H1 as (c & CH & H1). injection H1 as <- <-. apply chars_spec in CH. refl.
    split; auto. destruct c; [destruct (aro v) eqn:RO|].
    - split; [discriminate|]. intros (_ & _ & K). discriminate.
    - split; auto. intros _. split; auto. split; auto. apply CH; auto.
    - split; [discriminate|]. intros (_ & K & _). apply CH in K. discriminate. }
  destruct LV as [LV ->]. cbn [sty sval plain]. split.
  - intros Z. apply app_eq_nil in Z as [Z1 Z2]. destruct (proj1 LV Z2) as (A & B & C). apply l_copy; auto. apply LX; auto.
  - intros (t & r & L). inv L. rewrite (proj2 LX), (proj2 LV) by auto. reflexivity.
Qed.
Lemma pow_pos2 : forall n, 0 <= n -> 1 <= 2 ^ n.
Proof. intros n H. pose proof (Z.pow_pos_nonneg 2 n ltac:(lia) H). lia. Qed.
Lemma ASH_one : forall n, 0 <= n <= 62 -> ASH 1 n = Ok (2 ^ n).
Proof.
  intros n H. unfold ASH, ASHL. replace (n >=? 0) with true by lia. replace ((0 <=? n) && (n <? 64)) with true by lia. f_equal. rewrite Z.shiftl_mul_pow2, Z.mul_1_l by lia.
  apply wrap_s_id; [lia|]. pose proof (pow_pos2 n ltac:(lia)). assert (2 ^ n <= 2 ^ 62) by (apply Z.pow_le_mono_r; lia). unfold in_int. change (2 ^ (64 - 1)) with (2 * 2 ^ 62). lia.
Qed.
Lemma ash_exact : forall x n, good_arg E x -> good_arg E n -> exact Ash [x; n].
Proof.
  intros x n G Gn p e H. open2 H. change (Nat.ltb 2 2) with false in H2. injection H2 as <- <-. rewrite app_nil_r.
  assert (LX : (e0 = [] <-> value x /\ sform (T (aty x)) = FInt) /\ (e0 = [] -> sty p0 = (if ssize (T (aty x)) <? ssize (T (linttyp D)) then linttyp D else aty x) /\ sval p0 = if con x then Some (aiv x) else None)).
  { destruct (bad x) eqn:B; [injection H0 as <- <-; refl; split; [split; [discriminate|tauto]|discriminate]|]. destruct (is_form (sform (T (aty x))) FInt) eqn:F; [|injection H0 as <- <-; refl; split; [split; [discriminate|tauto]|discriminate]].
    apply bad_f in B. apply is_form_iff in F. destruct (ssize (T (aty x)) <? ssize (T (linttyp D))) eqn:SZ.
    - conv. pose proof (d_lint E P D PD) as DL. assert (CV : converts x (linttyp D)).
      { intros C. split; [|split; [intros; congruence|split; intros R; exfalso; revert R; nr]]. intros _ _. destruct G as (_ & G & _). destruct (G C F) as [_ G'].
        eapply fits_mono; [|exact G']. pose proof (d_sizes E P D PD _ F). refl. lia. }
      assert (EN : e0 = []) by (apply A; auto). split; [tauto|]. intros _. destruct (B0 EN) as [-> ->]. split; auto. unfold converted. rewrite F. reflexivity.
    - injection H0 as <- <-. split; [tauto|]. intros _. split; reflexivity. }
  destruct LX as [LX LP].
  destruct (bad n) eqn:B; [injection H1 as <- <-; refl; split; [intros Z; nils; discriminate|intros (t & r & L); exfalso; inv L; contradiction]|]. apply bad_f in B.
  destruct (is_form (sform (T (aty n))) FInt) eqn:F; [|injection H1 as <- <-; refl; split; [intros Z; nils; discriminate|intros (t & r & L); exfalso; inv L; contradiction]]. apply is_form_iff in F.
  assert (VF : forall P1 : Prop, P1 -> (e0 = [] -> P1)) by auto.
  destruct (con x) eqn:CX.
  2: { assert (NC : ~ constant x) by (apply con_f; auto). split.
    - intros Z. apply app_eq_nil in Z as [Z1 Z2]. destruct (LP Z1) as [S1 S2]. rewrite S2 in H1. injection H1 as <- <-. cbn [sty sval plain]. rewrite S1. destruct (proj1 LX Z1) as [X1 X2].
      apply l_ash; auto. right. split; [tauto|reflexivity].
    - intros (t & r & L). inv L. assert (Z1 : e0 = []) by (apply LX; auto). destruct (LP Z1) as [S1 S2]. rewrite S2 in H1. injection H1 as <- <-. rewrite Z1. reflexivity. }
  destruct (con n) eqn:CN.
  2: { assert (NC : ~ constant n) by (apply con_f; auto). split.
    - intros Z. apply app_eq_nil in Z as [Z1 Z2]. destruct (LP Z1) as [S1 S2]. rewrite S2 in H1. injection H1 as <- <-. cbn [sty sval plain]. rewrite S1. destruct (proj1 LX Z1) as [X1 X2].
      apply l_ash; auto. right. split; [tauto|reflexivity].
    - intros (t & r & L). inv L. assert (Z1 : e0 = []) by (apply LX; auto). destruct (LP Z1) as [S1 S2]. rewrite S2 in H1. injection H1 as <- <-. rewrite Z1. reflexivity. }
  refl. assert (K : e0 = [] -> (e1 = [] <-> -62 <= aiv n <= 62 /\ in_int 64 (if aiv n >=? 0 then Z.abs (aiv x) * 2 ^ aiv n else aiv x)) /\
     (e1 = [] -> sty p1 = sty p0 /\ sval p1 = Some (if aiv n >=? 0 then aiv x * 2 ^ aiv n else aiv x / 2 ^ (- aiv n)))).
  { intros Z1. destruct (LP Z1) as [S1 S2]. rewrite S2 in H1. destruct ((-62 >? aiv n) || (aiv n >? 62)) eqn:RG; [injection H1 as <- <-; split; [split; [discriminate|intros [K _]; refl; lia]|discriminate]|].
    apply orb_false_iff in RG as [R1 R2]. refl. destruct (aiv n >=? 0) eqn:NN; refl.
    - rewrite ASH_one in H1 by lia. cbn [bind] in H1. apply bind_inv2 in H1 as (a & AB & H1). unfold chk in AB. destruct (in_intb 64 (Z.abs (aiv x))) eqn:IB; [|discriminate]. injection AB as <-. apply in_intb_iff in IB.
      pose proof (pow_pos2 (aiv n) NN) as PP. change (2 ^ 63 - 1) with 9223372036854775807 in H1.
      destruct (Z.abs (aiv x) <=? 9223372036854775807 / 2 ^ aiv n) eqn:Q; refl.
      + assert (AM : Z.abs (aiv x) * 2 ^ aiv n <= 9223372036854775807). { pose proof (Z.mul_div_le 9223372036854775807 (2 ^ aiv n) ltac:(lia)). nia. }
        apply bind_inv2 in H1 as (r & CK & H1). unfold chk in CK. destruct (in_intb 64 (aiv x * 2 ^ aiv n)) eqn:IB2; [|discriminate]. injection CK as <-. injection H1 as <- <-.
        split; [|auto]. split; auto. intros _. split; [lia|]. unfold in_int. change (2 ^ (64 - 1)) with 9223372036854775808. nia.
      + injection H1 as <- <-. split; [|discriminate]. split; [discriminate|]. intros [_ K]. exfalso. unfold in_int in K. change (2 ^ (64 - 1)) with 9223372036854775808 in K.
        assert (Z.abs (aiv x) <= 9223372036854775807 / 2 ^ aiv n) by (apply Z.div_le_lower_bound; lia). lia.
    - apply bind_inv2 in H1 as (r & CK & H1). injection H1 as <- <-. unfold ASH, ASHR in CK. replace (aiv n >=? 0) with false in CK by lia. replace ((0 <=? - aiv n) && (- aiv n <? 64)) with true in CK by lia.
      rewrite Z.shiftr_div_pow2 in CK by lia. injection CK as <-. split; [|auto]. split; auto. intros _. split; [lia|]. destruct (proj1 LX Z1) as [_ FX]. destruct G as (_ & G & _). apply G; auto. }
  split.
  - intros Z. apply app_eq_nil in Z as [Z1 Z2]. destruct (K Z1) as [K1 K2]. destruct (K2 Z2) as [-> ->]. destruct (LP Z1) as [-> _]. destruct (proj1 LX Z1) as [X1 X2]. destruct (proj1 K1 Z2) as [Y1 Y2].
    apply l_ash; auto. left. auto 10.
  - intros (t & r & L). inv L. assert (Z1 : e0 = []) by (apply LX; auto). rewrite Z1. cbn [app]. apply (K Z1).
    match goal with h : _ \/ _ |- _ => destruct h as [h|h] end; tauto.
Qed.
Lemma shift_exact : forall f x n, f = Lsh \/ f = Rot -> exact f [x; n].
Proof.
  intros f x n F p e H. assert (K : exists e0 e1, e = e0 ++ e1 /\
    e0 = (if bad x then [126] else if negb (is_form (sform (T (aty x))) FInt || is_form (sform (T (aty x))) FByte || is_form (sform (T (aty x))) FChar || is_form (sform (T (aty x))) FSet) then [111] else []) /\
    (if bad n then Ok (node x, [126]) else if negb (is_form (sform (T (aty n))) FInt) then Ok (node x, [111]) else Ok (plain (sty (node x)), [])) = Ok (p, e1)).
  { destruct F as [-> | ->]; open2 H; injection H0 as <- <-; change (Nat.ltb 2 2) with false in H2; injection H2 as <- <-; rewrite app_nil_r; eauto. }
  destruct K as (e0 & e1 & -> & E0 & H1). cbn [node sty] in H1.
  assert (LX : e0 = [] <-> value x /\ (sform (T (aty x)) = FInt \/ sform (T (aty x)) = FByte \/ sform (T (aty x)) = FChar \/ sform (T (aty x)) = FSet)).
  { subst e0. destruct (bad x) eqn:B; refl; [split; [discriminate|tauto]|].
    destruct (negb (is_form (sform (T (aty x))) FInt || is_form (sform (T (aty x))) FByte || is_form (sform (T (aty x))) FChar || is_form (sform (T (aty x))) FSet)) eqn:Q; refl; split; auto; try discriminate; tauto. }
  assert (LN : (e1 = [] <-> value n /\ sform (T (aty n)) = FInt) /\ (e1 = [] -> p = plain (aty x))).
  { destruct (bad n) eqn:B; [|destruct (negb (is_form (sform (T (aty n))) FInt)) eqn:Q]; injection H1 as <- <-; refl; (split; [split|]); auto; try discriminate; tauto. }
  destruct LN as [LN LP]. split.
  - intros Z. apply app_eq_nil in Z as [Z1 Z2]. rewrite (LP Z2). cbn [sty sval plain]. destruct (proj1 LX Z1). destruct (proj1 LN Z2). apply l_shift; auto.
  - intros (t & r & L). assert (K : value x /\ (sform (T (aty x)) = FInt \/ sform (T (aty x)) = FByte \/ sform (T (aty x)) = FChar \/ sform (T (aty x)) = FSet) /\ value n /\ sform (T (aty n)) = FInt)
      by (destruct F as [-> | ->]; inv L; auto). destruct K as (K1 & K2 & K3). rewrite (proj2 LX), (proj2 LN) by auto. reflexivity.
Qed.
Definition mem_form (f : form) : bool := match f with FUndef | FByte | FBool | FChar | FInt | FReal | FLReal | FSet | FPointer | FProc => true | _ => false end.
Lemma mem_form_iff : forall x, good_arg E x -> (mem_form (sform (T (aty x))) = true <-> scalar (sform (T (aty x)))).
Proof. intros x [G _]. destruct (sform (T (aty x))); cbn; split; auto; try discriminate; contradiction. Qed.
Lemma get_exact : forall a v, good_arg E a -> good_arg E v -> exact Get [a; v].
Proof.
  intros a v Ga Gv p e H. open2 H. change (Nat.ltb 2 2) with false in H2. injection H1 as <- <-. injection H2 as <- <-. rewrite app_nil_r. pose proof (address_spec _ _ _ Ga H0) as A. cbn [sty sval plain].
  fold (mem_form (sform (T (aty v)))). pose proof (mem_form_iff v Gv) as M.
  assert (LV : (if bad v then [126] else if mem_form (sform (T (aty v))) then if NotVar v then [112] else [] else [111]) = [] <-> variable v /\ scalar (sform (T (aty v)))).
  { destruct (bad v) eqn:B; [refl; split; [discriminate|intros [K _]; apply variable_value in K; contradiction]|]. destruct (mem_form (sform (T (aty v)))) eqn:Q; [destruct (NotVar v) eqn:N|]; refl.
    - split; [discriminate|tauto].
    - split; auto. intros _. split; auto. apply M; auto.
    - split; [discriminate|]. intros [_ K]. apply M in K. discriminate. }
  split.
  - intros Z. apply app_eq_nil in Z as [Z1 Z2]. apply LV in Z2 as [L1 L2]. apply l_get; auto. apply A; auto.
  - intros (t & r & L). inv L. rewrite (proj2 A), (proj2 LV) by auto. reflexivity.
Qed.
Lemma put_exact : forall a v, good_arg E a -> good_arg E v -> exact Put [a; v].
Proof.
  intros a v Ga Gv p e H. open2 H. change (Nat.ltb 2 2) with false in H2. injection H1 as <- <-. injection H2 as <- <-. rewrite app_nil_r. pose proof (address_spec _ _ _ Ga H0) as A. cbn [sty sval plain].
  fold (mem_form (sform (T (aty v)))). pose proof (mem_form_iff v Gv) as M.
  assert (LV : (if bad v then [126] else if mem_form (sform (T (aty v))) then [] else [111]) = [] <-> value v /\ scalar (sform (T (aty v)))).
  { destruct (bad v) eqn:B; [refl; split; [discriminate|tauto]|]. destruct (mem_form (sform (T (aty v)))) eqn:Q; refl.
    - split; auto. intros _. split; auto. apply M; auto.
    - split; [discriminate|]. intros [_ K]. apply M in K. discriminate. }
  split.
  - intros Z. apply app_eq_nil in Z as [Z1 Z2]. apply LV in Z2 as [L1 L2]. apply l_put; auto. apply A; auto.
  - intros (t & r & L). inv L. rewrite (proj2 A), (proj2 LV) by auto. reflexivity.
Qed.
Lemma reg_exact : forall f x v, f = GetReg \/ f = PutReg -> exact f [x; v].
Proof.
  intros f x v F p e H. assert (K : exists e0 e1, e = e0 ++ e1 /\ e0 <> []).
  { destruct F as [-> | ->]; open2 H; injection H0 as <- <-; (eexists; eexists; split; [reflexivity|]);
    (destruct (is_form (sform (T (aty x))) FInt && con x); [|discriminate]); (destruct ((aiv x <? 0) || (aiv x >? -1)) eqn:Q; [discriminate|]); apply orb_false_iff in Q as [Q1 Q2]; refl; lia. }
  destruct K as (e0 & e1 & -> & K). split; [intros Z; apply app_eq_nil in Z as [Z _]; contradiction|]. intros (t & r & L). exfalso. destruct F as [-> | ->]; inv L.
Qed.
Lemma bit_exact : forall a n, good_arg E a -> exact Bit [a; n].
Proof.
  intros a n Ga p e H. open2 H. change (Nat.ltb 2 2) with false in H2. injection H1 as <- <-. injection H2 as <- <-. rewrite app_nil_r. pose proof (address_spec _ _ _ Ga H0) as A. cbn [sty sval plain].
  assert (LV : (if bad n then [126] else if is_form (sform (T (aty n))) FInt then [] else [111]) = [] <-> value n /\ sform (T (aty n)) = FInt).
  { iff_goal; refl; split; auto; try discriminate; tauto. }
  split.
  - intros Z. apply app_eq_nil in Z as [Z1 Z2]. apply LV in Z2 as [L1 L2]. apply l_bit; auto. apply A; auto.
  - intros (t & r & L). inv L. rewrite (proj2 A), (proj2 LV) by auto. reflexivity.
Qed.
Lemma sysnew_exact : forall q n, exact SysNew [q; n].
Proof.
  intros q n p e H. open2 H. change (Nat.ltb 2 2) with false in H2. injection H0 as <- <-. injection H1 as <- <-. injection H2 as <- <-. rewrite app_nil_r. cbn [sty sval plain].
  assert (LQ : (if NotVar q then [112] else if is_form (sform (T (aty q))) FPointer then [] else [111]) = [] <-> variable q /\ sform (T (aty q)) = FPointer).
  { iff_goal; refl; split; auto; try discriminate; tauto. }
  assert (LV : (if bad n then [126] else if is_form (sform (T (aty n))) FInt then [] else [111]) = [] <-> value n /\ sform (T (aty n)) = FInt).
  { iff_goal; refl; split; auto; try discriminate; tauto. }
  split.
  - intros Z. apply app_eq_nil in Z as [Z1 Z2]. apply LV in Z2 as [L1 L2]. apply LQ in Z1 as [L3 L4]. apply l_sysnew; auto.
  - intros (t & r & L). inv L. rewrite (proj2 LQ), (proj2 LV) by auto. reflexivity.
Qed.
Lemma val_exact : forall t x, good_arg E t -> good_arg E x -> exact Val [t; x].
Proof.
  intros t x Gt Gx p e H. open2 H. change (Nat.ltb 2 2) with false in H2. injection H0 as <- <-. injection H2 as <- <-. rewrite app_nil_r. cbn [node sty] in H1.
  assert (LT : (if negb (acl t =? Ntype) then [110] else if is_form (sform (T (aty t))) FUndef || is_form (sform (T (aty t))) FString || is_form (sform (T (aty t))) FNoTyp || is_comp (scomp (T (aty t))) DynArr
     then [111] else []) = [] <-> type_name t /\ any E (aty t)).
  { unfold type_name, any. destruct Gt as [Gt _]. iff_goal; refl; split; auto; try discriminate; tauto. }
  assert (LE : (if bad x || is_form (sform (T (aty x))) FUndef || is_form (sform (T (aty x))) FString || is_form (sform (T (aty x))) FNoTyp || is_comp (scomp (T (aty x))) DynArr then [126] else []) = [] <->
     value x /\ any E (aty x)).
  { unfold any. destruct Gx as [Gx _]. iff_goal; refl; split; auto; try discriminate; tauto. }
  revert H1 LT LE. generalize (if negb (acl t =? Ntype) then [110] else if is_form (sform (T (aty t))) FUndef || is_form (sform (T (aty t))) FString || is_form (sform (T (aty t))) FNoTyp || is_comp (scomp (T (aty t))) DynArr then [111] else []) as et.
  generalize (if bad x || is_form (sform (T (aty x))) FUndef || is_form (sform (T (aty x))) FString || is_form (sform (T (aty x))) FNoTyp || is_comp (scomp (T (aty x))) DynArr then [126] else []) as ex. intros ex et H1 LT LE.
  destruct (con x && is_form (sform (T (aty x))) FInt && is_form (sform (T (aty t))) FInt) eqn:Q.
  - refl. apply bind_inv2 in H1 as ([q f1] & H1 & HE). injection HE as <- <-. conv.
    assert (CV : converts x (aty t) <-> kept E x (aty t)).
    { split; [intros CV C; apply CV; auto|]. intros K C. split; [intros _ _; apply K; auto|]. split; [intros; congruence|split; intros R; exfalso; revert R; nr]. }
    split.
    + intros Z. apply app_eq_nil in Z as [Z1 Z2]. apply app_eq_nil in Z2 as [Z2 Z3]. destruct (B Z3) as [-> ->]. apply LT in Z1 as [T1 T2]. apply LE in Z2 as [X1 X2]. apply l_val; auto. left.
      split; auto. split; auto. split; auto. split; [apply CV, A; auto|]. unfold converted. destruct (con x) eqn:CC; refl; [|contradiction]. destruct (in_real (sform (T (aty x)))) eqn:RR; auto. apply real_t in RR. destruct RR; congruence.
    + intros (t0 & r0 & L). inv L. rewrite (proj2 LT), (proj2 LE) by auto. cbn [app]. apply A, CV. match goal with h : _ \/ _ |- _ => destruct h as [h|h] end; tauto.
  - assert (NQ : ~ (constant x /\ sform (T (aty x)) = FInt /\ sform (T (aty t)) = FInt)).
    { intros (Q1 & Q2 & Q3). apply andb_false_iff in Q as [Q|Q]; [apply andb_false_iff in Q as [Q|Q]|]; refl; contradiction. }
    injection H1 as <- <-. cbn [sty sval plain]. split.
    + intros Z. apply app_eq_nil in Z as [Z1 Z2]. apply LT in Z1 as [T1 T2]. apply LE in Z2 as [X1 X2]. apply l_val; auto.
    + intros (t0 & r0 & L). inv L. rewrite (proj2 LT), (proj2 LE) by auto. reflexivity.
Qed.
Lemma assertn_exact : forall x n, good_arg E x -> exact Assert [x; n].
Proof.
  intros x n G p e H. open2 H. change (Nat.ltb 2 1) with false in H2. injection H2 as <- <-. rewrite app_nil_r.
  assert (LX : (e0 = [] <-> value x /\ sform (T (aty x)) = FBool) /\ (e0 = [] -> sval p0 = if con x then Some (1 - aiv x) else None)).
  { destruct (bad x) eqn:B; [injection H0 as <- <-; refl; split; [split; [discriminate|tauto]|discriminate]|]. destruct (negb (is_form (sform (T (aty x))) FBool)) eqn:F; [injection H0 as <- <-; refl; split; [split; [discriminate|tauto]|discriminate]|].
    assert (M : fst (MOp E P MNot (ao x) false) = []).
    { unfold MOp, form_of. fold (bad x). fold (aty x). rewrite B. apply negb_false_iff in F. rewrite F. reflexivity. }
    rewrite M in H0. remember (1 - aiv x) as w eqn:W in H0. injection H0 as <- <-. refl. split; [tauto|]. intros _. cbn [sval]. rewrite W. reflexivity. }
  destruct LX as [LX LP]. destruct (is_form (sform (T (aty n))) FInt && con n) eqn:Q.
  2: { injection H1 as <- <-. split; [intros Z; nils; discriminate|]. intros (t & r & L). exfalso. inv L. apply andb_false_iff in Q as [Q|Q]; refl; contradiction. }
  refl. destruct ((0 <=? aiv n) && (aiv n <=? 255)) eqn:RG.
  2: { injection H1 as <- <-. split; [intros Z; nils; discriminate|]. intros (t & r & L). exfalso. inv L. apply andb_false_iff in RG as [RG|RG]; refl; lia. }
  refl. injection H1 as <- <-. cbn [sty sval plain].
  assert (LA : e0 = [] -> (assert_ p0 = [] <-> ~ (constant x /\ aiv x = 0))).
  { intros Z. unfold assert_. rewrite (LP Z). destruct (proj1 LX Z) as [_ FB]. destruct G as (_ & _ & _ & G & _). destruct (con x) eqn:C; refl; [|tauto]. specialize (G C FB).
    destruct (1 - aiv x =? 0) eqn:W; cbn [negb]; refl; split; auto; try discriminate; intros K; try lia. exfalso. apply K. split; auto. lia. }
  split.
  - intros Z. apply app_eq_nil in Z as [Z1 Z2]. destruct (proj1 LX Z1) as [X1 X2]. apply l_assertn; auto. apply LA; auto.
  - intros (t & r & L). inv L. assert (Z1 : e0 = []) by (apply LX; auto). rewrite (proj2 (LA Z1)) by auto. rewrite Z1. reflexivity.
Qed.

Lemma call_exact : forall f xs, Forall (good_arg E) xs -> (f = Len -> forall x, hd_error xs = Some x -> value x) -> exact f xs.
Proof.
  intros f xs G V. destruct xs as [|x [|y [|z xs]]].
  - apply none_exact.
  - inversion G as [|? ? Gx _]; subst. destruct f; try (apply two_exact; cbn [In]; tauto).
    all: try (apply new_exact). all: try (apply inc_exact; auto; fail).
    + apply halt_exact. + apply abs_exact; auto. + apply cap_exact. + apply ord_exact; auto. + apply entier_exact; auto. + apply odd_exact. + apply min_exact; auto.
    + apply max_exact; auto. + apply chr_exact; auto. + apply short_exact; auto. + apply long_exact; auto. + apply size_exact; auto. + apply len_one; auto. + apply assert_exact; auto.
  - inversion G as [|? ? Gx G']; subst. inversion G' as [|? ? Gy _]; subst. destruct f; try (apply single_exact; cbn [In]; tauto).
    all: try (apply new_exact). all: try (apply incn_exact; auto; fail). all: try (apply incl_exact; auto; fail). all: try (apply shift_exact; auto; fail). all: try (apply reg_exact; auto; fail).
    + apply len_two; auto. + apply copy_exact. + apply ash_exact; auto. + apply get_exact; auto. + apply put_exact; auto. + apply bit_exact; auto. + apply val_exact; auto. + apply sysnew_exact. + apply move_exact; auto. + apply assertn_exact; auto.
  - inversion G as [|? ? Gx G']; subst. inversion G' as [|? ? Gy _]; subst. destruct f; try (apply many_exact; discriminate); [apply new_exact|apply move_exact; auto].
Qed.
End WithTable.

(** ** The properties *)
Section Props.
Variable E : env.
Variable P : predecl.
Variable D : std.
Notation T t := (str E t).
Hypothesis TB : table E.
Hypothesis PD : predefined E P D.

(** A call is accepted exactly if the table allows it, and then has the type and the constant value that the table gives.  Partial: the first
    argument of LEN must not be the name of a type ([C84_len_refuted]). *)
Theorem C84_exact_partial : forall f xs p e, Forall (good_arg E) xs -> (f = Len -> forall x, hd_error xs = Some x -> value x) -> call E P D f xs = Ok (p, e) ->
  (e = [] <-> exists t r, legal E P D f xs t r) /\ (e = [] -> legal E P D f xs (sty p) (sval p)).
Proof.
  intros f xs p e G V H. destruct (call_exact E P D TB PD f xs G V p e H) as [A B]. split; auto. split; auto. intros Z. eauto.
Qed.
(** Every call has an outcome, except that the absolute value of the lowest constant is undefined in ASH. *)
Lemma int_const_total : forall v, in_int 64 v -> exists n, int_const D v = Ok n.
Proof. intros v H. destruct (int_const_ok E P D PD v H) as (n & A & _). eauto. Qed.
Lemma one_in : in_int 64 1. Proof. unfold in_int. lia. Qed.
Lemma total0 : forall f x, good_arg E x -> exists p e, StPar0 E P D f x = Ok (p, e).
Proof.
  intros f x G. assert (CV : forall t, exists p e, Convert E x t = Ok (p, e)) by (intros t; destruct (Convert_total E x t G) as ([p e] & H); eauto).
  assert (IC : forall v l, in_int 64 v -> exists p e, (let* n := int_const D v in Ok (n, l)) = Ok (p, e) :> res (st * list Z)) by (intros v l H; destruct (int_const_total v H) as (n & ->); cbn [bind]; eauto).
  assert (AD : exists p e, address E D x = Ok (p, e)) by (unfold address; repeat match goal with |- context [if ?b then _ else _] => destruct b eqn:? end; eauto).
  destruct f; cbn [StPar0]; unfold frm; auto; try (destruct (MOp E P _ (ao x) _) as [? ?]; eauto; fail);
    try (repeat match goal with |- context [if ?b then _ else _] => destruct b eqn:? end; eauto; fail).
  - destruct (NotVar x); eauto. destruct (is_form (sform (T (aty x))) FPointer) eqn:F; eauto. apply is_form_iff in F. destruct (t_pbase E TB _ F) as [b B]. rewrite B. cbn [deref bind].
    destruct (is_comp (scomp (T b)) Record_ || is_array E b); eauto.
  - destruct (acl x =? Ntype); eauto. destruct (sform (T (aty x))) eqn:F; eauto. pose proof (d_sizes E P D PD _ F) as DS. rewrite (proj2 (C41_limits _ DS)). cbn [bind]. apply IC, limits_in; auto.
  - destruct (acl x =? Ntype); eauto. destruct (sform (T (aty x))) eqn:F; eauto. pose proof (d_sizes E P D PD _ F) as DS. rewrite (proj1 (C41_limits _ DS)). cbn [bind]. apply IC, limits_in; auto.
  - repeat match goal with |- context [if ?b then _ else _] => destruct b eqn:? end; apply IC; try apply one_in; apply (d_szof E P D PD).
  - destruct (con x && is_form (sform (T (aty x))) FChar); eauto. destruct (bad x); eauto. unfold chars. destruct (is_array E (aty x)) eqn:A; cbn [bind]; eauto.
    destruct (t_abase E TB _ (array_t E _ A)) as [b B]. rewrite B. cbn [deref bind]. eauto.
Qed.
Lemma down_total : forall n t, exists l u, down E n t = Ok (l, u).
Proof.
  induction n as [|n IH]; intros t; cbn [down]; eauto. destruct (is_array E t) eqn:A; eauto. destruct (t_abase E TB _ (array_t E _ A)) as [b B]. rewrite B. cbn [deref bind]. auto.
Qed.
Lemma total1 : forall f p x, good_arg E x -> (f = Ash -> sval p <> Some (- 2 ^ 63) /\ forall v, sval p = Some v -> in_int 64 v) -> exists q e, StPar1 E P D f p x = Ok (q, e).
Proof.
  intros f p x G NA. assert (CV : forall t, exists p e, Convert E x t = Ok (p, e)) by (intros t; destruct (Convert_total E x t G) as ([q e] & H); eauto).
  destruct f; cbn [StPar1]; unfold frm; eauto; try (repeat match goal with |- context [if ?b then _ else _] => destruct b eqn:? end; eauto; fail);
    try (repeat match goal with |- context [if ?b then _ else _] => destruct b eqn:? end; eauto; destruct (CV (sty p)) as (q & e & ->); cbn [bind]; eauto; fail).
  - destruct (bad x); eauto. destruct (is_comp (scomp (T (sty p))) DynArr) eqn:DY; eauto. apply is_comp_iff in DY. destruct (t_abase E TB _ (or_intror DY)) as [b B]. rewrite B. cbn [deref bind]. eauto.
  - destruct (negb (is_form (sform (T (aty x))) FInt) || negb (con x)); eauto. destruct (ssize (T (aty x)) =? 1); eauto.
    assert (K : exists l u, (if aiv x >=? 0 then down E (Z.to_nat (aiv x)) (sty p) else Ok (1%nat, sty p)) = Ok (l, u)) by (destruct (aiv x >=? 0); [apply down_total|eauto]).
    destruct K as (l & u & ->). cbn [bind]. destruct (negb (Nat.eqb l 0) || negb (is_array E u)) eqn:Q; eauto. destruct (is_comp (scomp (T u)) DynArr) eqn:DY; eauto.
    apply orb_false_iff in Q as [_ Q]. apply negb_false_iff, array_t in Q. apply comp_no in DY. destruct Q as [Q|Q]; [|contradiction]. destruct (int_const_total _ (d_len E P D PD u)) as (n & ->). cbn [bind]. eauto.
  - destruct (NotVar x); eauto. unfold chars. destruct (is_array E (aty x)) eqn:A; cbn [bind]; eauto. destruct (t_abase E TB _ (array_t E _ A)) as [b B]. rewrite B. cbn [deref bind]. eauto.
  - destruct (NA eq_refl) as [N1 N2]. destruct (bad x); eauto. destruct (is_form (sform (T (aty x))) FInt); eauto. destruct (sval p) as [v|]; eauto. destruct (con x); eauto.
    specialize (N2 v eq_refl). assert (NV : v <> - 2 ^ 63) by congruence. destruct ((-62 >? aiv x) || (aiv x >? 62)) eqn:RG; eauto. apply orb_false_iff in RG as [R1 R2]. rewrite Z.gtb_ltb in R1, R2. apply Z.ltb_ge in R1, R2.
    destruct (aiv x >=? 0) eqn:NN; rewrite Z.geb_leb in NN.
    + apply Z.leb_le in NN. rewrite ASH_one by lia. cbn [bind]. unfold chk. assert (IB : in_intb 64 (Z.abs v) = true).
      { apply in_intb_iff. unfold in_int in *. change (2 ^ (64 - 1)) with (2 ^ 63) in *. lia. }
      rewrite IB. cbn [bind]. pose proof (pow_pos2 (aiv x) NN) as PP. change (2 ^ 63 - 1) with 9223372036854775807. destruct (Z.abs v <=? 9223372036854775807 / 2 ^ aiv x) eqn:Q; eauto. apply Z.leb_le in Q.
      assert (AM : Z.abs v * 2 ^ aiv x <= 9223372036854775807). { pose proof (Z.mul_div_le 9223372036854775807 (2 ^ aiv x) ltac:(lia)). nia. }
      assert (IB2 : in_intb 64 (v * 2 ^ aiv x) = true). { apply in_intb_iff. unfold in_int. change (2 ^ (64 - 1)) with 9223372036854775808. nia. }
      rewrite IB2. cbn [bind]. eauto.
    + apply Z.leb_gt in NN. unfold ASH, ASHR. replace (aiv x >=? 0) with false by lia. replace ((0 <=? - aiv x) && (- aiv x <? 64)) with true by lia. cbn [bind]. eauto.
  - assert (AD : exists p e, address E D x = Ok (p, e)) by (unfold address; repeat match goal with |- context [if ?b then _ else _] => destruct b eqn:? end; eauto).
    destruct AD as (q & e & ->). cbn [bind]. eauto.
Qed.
Lemma totaln : forall f xs p n, exists q e m, rest E D f p n xs = Ok (q, e, m).
Proof.
  intros f xs. induction xs as [|x xs IH]; intros p n; cbn [rest]; eauto. assert (K : exists q e, StParN E D f p x n = Ok (q, e)).
  { destruct f; cbn [StParN]; eauto.
    - destruct (bad x); eauto. destruct (is_comp (scomp (T (sty p))) DynArr) eqn:DY; cbn [negb]; eauto. destruct (is_form (frm E x) FInt); eauto. apply is_comp_iff in DY. destruct (t_abase E TB _ (or_intror DY)) as [b B]. rewrite B. cbn [deref bind]. eauto.
    - destruct (Nat.eqb n 2); eauto. }
  destruct K as (q & e & ->). cbn [bind]. destruct (IH q (S n)) as (q' & e' & m & ->). cbn [bind]. eauto.
Qed.
Lemma total_end : forall f p n, exists q e, StFct E D f p n = Ok (q, e).
Proof.
  intros f p n. destruct f; cbn [StFct]; try (repeat match goal with |- context [if ?b then _ else _] => destruct b eqn:? end; eauto; fail).
  destruct (Nat.eqb n 1); eauto. destruct (is_comp (scomp (T (sty p))) DynArr); eauto. destruct (int_const_total _ (d_len E P D PD (sty p))) as (q & ->). cbn [bind]. eauto.
Qed.
Lemma ash_first : forall x p e, good_arg E x -> StPar0 E P D Ash x = Ok (p, e) -> aiv x <> - 2 ^ 63 -> (constant x -> in_int 64 (aiv x)) ->
  sval p <> Some (- 2 ^ 63) /\ forall v, sval p = Some v -> in_int 64 v.
Proof.
  intros x p e G H N I. cbn [StPar0] in H. assert (C : sval p = (if con x then Some (aiv x) else None) \/ sval p = Some 1).
  { destruct (bad x); [injection H as <- <-; auto|]. destruct (is_form (frm E x) FInt) eqn:F; [|injection H as <- <-; auto].
    destruct (ssize (T (aty x)) <? ssize (T (linttyp D))); [|injection H as <- <-; auto]. unfold Convert in H. rewrite F in H. destruct (con x) eqn:CX; [|injection H as <- <-; auto].
    assert (TY : forall t, sval (typed x t) = Some (aiv x)) by (intros t; cbn [typed sval]; rewrite CX; reflexivity).
    destruct (is_form (sform (T (linttyp D))) FInt); [|injection H as <- <-; auto]. destruct (ssize (T (aty x)) >? ssize (T (linttyp D))); [|injection H as <- <-; auto].
    apply bind_inv2 in H as (s & _ & H). destruct (s >? ssize (T (linttyp D))); injection H as <- <-; auto. }
  destruct C as [-> | ->]; [|split; [discriminate|intros v K; injection K as <-; apply one_in]].
  destruct (con x) eqn:CX; [|split; [discriminate|discriminate]]. split; [congruence|]. intros v K. injection K as <-. apply I, con_t; auto.
Qed.
Theorem C84_total : forall f xs, Forall (good_arg E) xs -> (f = Ash -> forall x, hd_error xs = Some x -> aiv x <> - 2 ^ 63 /\ in_int 64 (aiv x)) ->
  exists p e, call E P D f xs = Ok (p, e).
Proof.
  intros f xs G A. destruct xs as [|x [|y xs]]; cbn [call].
  - apply total_end.
  - inversion G as [|? ? Gx _]; subst. destruct (total0 f x Gx) as (p & e & ->). cbn [bind]. destruct (total_end f p 1) as (q & e' & ->). cbn [bind]. eauto.
  - inversion G as [|? ? Gx G']; subst. inversion G' as [|? ? Gy _]; subst. destruct (total0 f x Gx) as (p & e & H0). rewrite H0. cbn [bind].
    destruct (total1 f p y Gy) as (q & e' & ->). { intros ->. destruct (A eq_refl x eq_refl) as [A1 A2]. exact (ash_first x p e Gx H0 A1 (fun _ => A2)). }
    cbn [bind]. destruct (totaln f xs q 2) as (q' & e'' & m & ->). cbn [bind]. destruct (total_end f q' m) as (q3 & e3 & ->). cbn [bind]. eauto.
Qed.
(** What a call changes is a variable that may be written.  Partial: not for GET and NEW of SYSTEM ([C84_readonly_refuted]). *)
Theorem C84_readonly_partial : forall f xs p x, Forall (good_arg E) xs -> call E P D f xs = Ok (p, []) -> changed f xs = Some x -> f <> Get -> f <> GetReg -> f <> SysNew ->
  variable x /\ aro x = false.
Proof.
  intros f xs p x G H C N1 N2 N3. assert (V : f = Len -> forall x, hd_error xs = Some x -> value x) by (intros ->; destruct xs; discriminate).
  destruct (C84_exact_partial f xs p [] G V H) as [_ L]. specialize (L eq_refl).
  inversion L; subst; cbn [changed] in C; try discriminate; try contradiction; try (match goal with h : @eq fct _ _ \/ @eq fct _ _ |- _ => destruct h; subst end); cbn [changed] in C; try discriminate; injection C as <-; auto.
Qed.
(** The number that LEN gets for an open array is the number of the dimension in the type of the whole array. *)
Lemma dimension_app : forall t n u m v, dimension E t n u -> dimension E u m v -> dimension E t (n + m) v.
Proof. intros t n u m v H. induction H; intros K; cbn [plus]; auto. econstructor; eauto. Qed.
Lemma last_cons : forall (ts : list tid) a t, last (a :: ts) t = last ts a.
Proof. induction ts as [|b ts IH]; intros a t; [reflexivity|]. change (last (b :: ts) t = last (b :: ts) a). rewrite !IH. reflexivity. Qed.
Lemma chain_root : forall ts t m v, chain E t ts -> dimension E t m v -> dimension E (last ts t) (length ts + m) v.
Proof.
  induction ts as [|a ts IH]; intros t m v C H; [exact H|]. destruct C as (A & B & C). assert (K : dimension E a (S m) v) by (econstructor; eauto).
  specialize (IH a (S m) v C K). replace (length (a :: ts) + m)%nat with (length ts + S m)%nat by (cbn [length]; lia).
  rewrite last_cons. exact IH.
Qed.
Theorem C84_len : forall x ns p, good_arg E x -> Forall (good_arg E) ns -> value x -> call E P D Len (x :: ns) = Ok (p, []) -> sval p = None ->
  exists d u, slen p = Some d /\ 0 <= d /\ lenarg E P D x ns u /\ scomp (T u) = DynArr /\ dimension E (last (aix x) (aty x)) (Z.to_nat d) u.
Proof.
  intros x ns p G Gn V H SV. assert (L : legal E P D Len (x :: ns) (sty p) (sval p)).
  { apply (C84_exact_partial Len (x :: ns) p []); auto. intros _ y Y. injection Y as <-. auto. }
  rewrite SV in L. inversion L; subst; try match goal with h : @eq fct _ _ \/ @eq fct _ _ |- _ => destruct h; discriminate end.
  match goal with h : lenarg _ _ _ _ _ ?u |- _ => rename h into LA; exists (match ns with [] => 0 | n :: _ => aiv n end + Z.of_nat (length (aix x))), u end.
  assert (CH : chain E (aty x) (aix x)) by apply G. inversion LA; subst.
  - unfold call in H. cbn [StPar0 bind StFct Nat.eqb node sty six] in H. destruct (is_comp (scomp (T (aty x))) DynArr) eqn:Q.
    + cbn [bind] in H. injection H as <- _. cbn [slen]. split; auto. split; [lia|]. split; auto. split; auto. replace (Z.to_nat (0 + Z.of_nat (length (aix x)))) with (length (aix x) + 0)%nat by lia. apply chain_root; auto.
    + exfalso. match goal with h : dimension _ _ 0 _ |- _ => inversion h; subst end. apply comp_no in Q. contradiction.
  - assert (AR : is_array E (aty x) = true). { match goal with h : dimension _ _ _ _ |- _ => inversion h; subst end; unfold is_array; match goal with h : array _ _ |- _ => destruct h as [h|h]; rewrite h end; reflexivity. }
    unfold call in H. cbn [StPar0 bind] in H. cbn [StPar1 node sty six] in H. unfold frm in H. rewrite AR in H. cbn [negb] in H.
    assert (Q1 : is_form (sform (T (aty n))) FInt = true) by (apply is_form_iff; auto). assert (Q2 : con n = true) by (apply Z.eqb_eq; auto). rewrite Q1, Q2 in H. cbn [negb orb] in H.
    assert (Q3 : (ssize (T (aty n)) =? 1) = true) by (apply Z.eqb_eq; auto). rewrite Q3 in H. assert (Q4 : (aiv n >=? 0) = true) by lia. rewrite Q4 in H.
    destruct (down_total (Z.to_nat (aiv n)) (aty x)) as (l & v & DW). rewrite DW in H. destruct (down_spec E _ _ _ _ DW) as [_ D2]. match goal with h : dimension _ _ _ _ |- _ => destruct (D2 _ h) as (-> & <- & AU) end.
    cbn [bind Nat.eqb negb orb] in H. assert (Q5 : is_array E u = true) by (unfold is_array; match goal with h : scomp (T u) = DynArr |- _ => rewrite h end; reflexivity). rewrite Q5 in H. cbn [negb] in H.
    assert (Q6 : is_comp (scomp (T u)) DynArr = true) by (apply is_comp_iff; auto). rewrite Q6 in H. cbn [bind rest StFct Nat.eqb] in H. injection H as <-. cbn [slen]. split; auto. split; [lia|]. split; auto. split; auto.
    replace (Z.to_nat (aiv n + Z.of_nat (length (aix x)))) with (length (aix x) + Z.to_nat (aiv n))%nat by lia. apply chain_root; auto.
Qed.
(** A constant result is a value of its type.  Partial: not for ASH and ENTIER ([C84_fits_refuted]). *)
Theorem C84_fits_partial : forall f xs p v, Forall (good_arg E) xs -> (f = Len -> forall x, hd_error xs = Some x -> value x) -> call E P D f xs = Ok (p, []) -> f <> Ash -> f <> Entier ->
  sval p = Some v -> sform (T (sty p)) = FInt -> fits (ssize (T (sty p))) v.
Proof.
  intros f xs p v G V H N1 N2 SV FI. assert (L : legal E P D f xs (sty p) (sval p)) by (apply (C84_exact_partial f xs p []); auto). rewrite SV in L. revert FI L. generalize (sty p) as t. intros t FI L.
  pose proof (d_bool E P D PD) as DB. pose proof (t_char E TB) as DC. pose proof (d_intsize E P D PD) as DI. pose proof (d_lintsize E P D PD) as DL.
  assert (SM : forall k, 2 <= k -> 0 <= v <= 255 -> fits k v).
  { intros k K R. apply (fits_mono 2); [lia|]. unfold fits. change (2 ^ (8 * 2 - 1)) with 32768. lia. }
  inversion L; subst; try contradiction; try congruence; try (match goal with h : int_type _ _ _ |- _ => apply h end); try (apply Forall_inv in G);
    repeat match goal with h : folded _ _ _ |- _ => destruct h as [[? h]|[? h]]; [injection h as ->|discriminate] end; auto.
  - apply SM; auto. apply G; auto.
  - match goal with Q : lengthened _ _ _ _ |- _ => apply (lengthened_iff E D) in Q; subst end. eapply fits_mono; [|apply G; auto]. pose proof (longer_ge E P D PD (aty x) ltac:(assumption)). pose proof (d_sizes E P D PD (aty x) ltac:(assumption)). lia.
  - apply SM; auto. apply G; auto.
  - apply SM; auto. lia.
  - apply SM; auto. match goal with h : sform _ = FSet |- _ => pose proof (d_set E P D PD _ h) end. lia.
  - match goal with h : _ \/ _ |- _ => destruct h as [(? & ? & ? & K & VV)|[? VV]]; [|discriminate VV] end. injection VV as ->. auto.
Qed.
End Props.

(** ** Examples *)
Definition sdemo : env :=
  {| undftyp := 0; sysptrtyp := 1; chartyp := 2; bytetyp := 3; stringtyp := 4;
     str := fun t => match t with
       | 1 => ptrto 0
       | 2 => basic FChar 1
       | 3 => basic FByte 1
       | 4 => basic FString 1
       | 5 => basic FNoTyp 1
       | 6 => basic FBool 1
       | 7 => basic FInt 1
       | 8 => basic FInt 2
       | 9 => basic FInt 4
       | 10 => basic FInt 8
       | 11 => basic FReal 4
       | 12 => basic FLReal 8
       | 13 => basic FSet 4
       | 14 => compty DynArr 0 (Some 2) []
       | 15 => compty Array 10 (Some 2) []
       | 16 => compty DynArr 0 (Some 9) []
       | 17 => compty DynArr 1 (Some 16) []
       | 18 => ptrto 17
       | 19 => compty Record_ 0 None []
       | 20 => ptrto 19
       | _ => basic FUndef 1
       end%nat |}.
Definition spre : predecl := {| booltyp := 6; realtyp := 11; lrltyp := 12; settyp := 13 |}.
Definition sstd : std :=
  {| notyp := 5; inttyp := 8; linttyp := 9; sinttyp := 7; adrtyp := 10; ityp := fun s => (if (s <=? 1)%Z then 7 else if (s <=? 2)%Z then 8 else if (s <=? 4)%Z then 9 else 10)%nat;
     maxidx := 2 ^ 31 - 1; adrsz := 8; szof := fun _ => 8 |}.
Lemma sdemo_all : forall t, exists u, (u < 22)%nat /\ str sdemo t = str sdemo u.
Proof. intros t. destruct (le_lt_dec 22 t) as [L|L]; [|eauto]. exists 21%nat. split; [lia|]. do 22 (destruct t as [|t]; [lia|]). reflexivity. Qed.
Lemma sdemo_table : table sdemo.
Proof.
  constructor; try reflexivity;
  intros t; destruct (sdemo_all t) as (u & L & ->); clear t;
  do 22 (destruct u as [|u]; [cbn;
    try (split; intros; congruence); try (intros; eauto; discriminate);
    try (intros [X|X]; discriminate); try (intros [X|X]; eauto);
    try (intros b R B; inversion B; subst; try discriminate; reflexivity); try lia|]); lia.
Qed.
Lemma sdemo_pre : predefined sdemo spre sstd.
Proof.
  constructor; try reflexivity; try (cbn; lia).
  - intros s [->|[->|[->| ->]]]; split; reflexivity.
  - intros t. destruct (sdemo_all t) as (u & L & ->). do 22 (destruct u as [|u]; [cbn; intros; try discriminate; lia|]). lia.
  - intros t. destruct (sdemo_all t) as (u & L & ->). do 22 (destruct u as [|u]; [cbn; intros; try discriminate; lia|]). lia.
  - intros t. destruct (sdemo_all t) as (u & L & ->). do 22 (destruct u as [|u]; [unfold in_int; cbn; lia|]). lia.
  - intros t. unfold in_int. cbn. lia.
Qed.
Definition av (t : tid) : arg := mka (mko 1 t 0 false 0) false None [] 0 false false.
Definition ro (t : tid) : arg := mka (mko 1 t 0 false 0) true None [] 0 false false.
Definition ac (t : tid) (v : Z) : arg := mka (mko Nconst t v false 0) false None [] 0 false false.
Definition at_ (t : tid) : arg := mka (mko Ntype t 0 false 0) false None [] 0 false false.
Definition run (f : fct) (xs : list arg) : option (tid * option Z * option Z * list Z) :=
  match call sdemo spre sstd f xs with Ok (p, e) => Some (sty p, sval p, slen p, e) | _ => None end.
Definition yes (t : tid) (r : option Z) := Some (t, r, @None Z, @nil Z).
Definition no (f : fct) (xs : list arg) : list Z := match run f xs with Some (_, e) => e | None => [] end.
(** A row of a matrix: the element type of the open array, below one index. *)
Definition row : arg := mka (mko 1 16%nat 0 false 0) false None [17%nat] 0 false false.
Lemma row_good : good_arg sdemo row.
Proof. split; [discriminate|]. split; [discriminate|]. split; [discriminate|]. split; [discriminate|]. cbn. repeat split; right; reflexivity. Qed.
Lemma av_good : forall t, sform (str sdemo t) <> FUndef -> good_arg sdemo (av t).
Proof. intros t H. split; [exact H|]. split; [discriminate|]. split; [discriminate|]. split; [discriminate|exact I]. Qed.

Theorem C84_len_refuted : exists x, type_name x /\ good_arg sdemo x /\ run Len [x] = yes 7 (Some 10).
Proof. exists (at_ 15). split; [reflexivity|]. split; [|reflexivity]. split; [discriminate|]. split; [discriminate|]. split; [discriminate|]. split; [discriminate|exact I]. Qed.
(** Finding: GET and NEW of SYSTEM write variables that are imported for reading only. *)
Theorem C84_readonly_refuted : exists x y, aro x = true /\ aro y = true /\ good_arg sdemo x /\ good_arg sdemo y /\
  changed Get [av 10; x] = Some x /\ run Get [av 10; x] = yes 5 None /\ changed SysNew [y; av 9] = Some y /\ run SysNew [y; av 9] = yes 5 None.
Proof.
  exists (ro 9), (ro 20). conjs; try reflexivity; (split; [discriminate|]); (split; [discriminate|]); (split; [discriminate|]); (split; [discriminate|exact I]).
Qed.
(** Finding: a constant ASH or ENTIER can be a LONGINT that does not fit a LONGINT. *)
Theorem C84_fits_refuted : exists x y z, good_arg sdemo x /\ good_arg sdemo y /\ good_arg sdemo z /\
  run Ash [x; y] = yes 9 (Some (2 ^ 40)) /\ run Entier [z] = yes 9 (Some (10 ^ 15)) /\ sform (str sdemo 9) = FInt /\
  ~ fits (ssize (str sdemo 9)) (2 ^ 40) /\ ~ fits (ssize (str sdemo 9)) (10 ^ 15).
Proof.
  exists (ac 7 1), (ac 7 40), (mka (mko Nconst 12%nat 0 false 0) false None [] (10 ^ 15) false false).
  assert (F : forall v, 0 <= v < 128 -> good_arg sdemo (ac 7 v)).
  { intros v V. split; [discriminate|]. split; [|split; [discriminate|split; [discriminate|exact I]]]. intros _ _. unfold in_int, fits. cbn. lia. }
  split; [apply F; lia|]. split; [apply F; lia|]. split; [split; [discriminate|]; split; [discriminate|]; split; [discriminate|]; split; [discriminate|exact I]|].
  split; [vm_compute; reflexivity|]. split; [vm_compute; reflexivity|]. split; [reflexivity|]. unfold fits. change (ssize (str sdemo 9)) with 4. split; vm_compute; intros [A B]; discriminate B.
Qed.
(** NEW of a matrix with one, two and three lengths; LEN of a row and of a fixed array; INC with a constant that does not fit; CHR, SHORT, ORD, MAX; COPY;
    ASSERT(FALSE); ASH of the lowest number; MOVE. *)
Example C84_met : table sdemo /\ predefined sdemo spre sstd /\ good_arg sdemo row /\ good_arg sdemo (av 18) /\
  run New [av 18; av 9; ac 7 3] = yes 5 None /\ no New [av 18; av 9] = [65] /\ no New [av 18; av 9; ac 7 3; ac 7 3] = [64] /\ no New [av 18; av 9; ac 7 0] = [63] /\ run New [av 20] = yes 5 None /\
  run Len [row] = Some (9%nat, None, Some 1, []) /\ run Len [av 17; ac 7 1] = Some (9%nat, None, Some 1, []) /\ no Len [av 17; ac 7 2] = [132] /\ run Len [av 15] = yes 7 (Some 10) /\
  run Inc [av 8; ac 8 1000] = yes 5 None /\ no Inc [av 7; ac 8 1000] = [203] /\ no Inc [ro 8] = [76] /\ run Dec [av 9] = yes 5 None /\
  run Chr [ac 8 65] = yes 2 (Some 65) /\ no Chr [ac 8 256] = [220] /\ run Short [av 9] = yes 8 None /\ no Short [ac 8 300] = [203] /\ run Ord [ac 2 255] = yes 8 (Some 255) /\
  run Max [at_ 10] = yes 10 (Some (2 ^ 63 - 1)) /\ run Min [at_ 7] = yes 7 (Some (-128)) /\ run Max [at_ 13] = yes 8 (Some 31) /\
  run Copy [av 14; av 15] = yes 5 None /\ no Assert [ac 6 0] = [99] /\ run Assert [ac 6 1; ac 7 3] = yes 5 None /\ call sdemo spre sstd Ash [ac 10 (- 2 ^ 63); ac 7 0] = UB /\
  run Ash [av 7; av 7] = yes 9 None /\ run Move [av 10; ac 9 16; av 9] = yes 5 None /\ no Move [av 9; ac 9 16; av 9] = [111] /\ no Odd [av 9; av 9] = [64] /\ run Val [at_ 13; av 9] = yes 13 None.
Proof.
  split; [apply sdemo_table|]. split; [apply sdemo_pre|]. split; [apply row_good|]. split; [apply av_good; discriminate|]. conjs; vm_compute; reflexivity.
Qed.

Print Assumptions C84_exact_partial.
Print Assumptions C84_total.
Print Assumptions C84_readonly_partial.
Print Assumptions C84_len.
Print Assumptions C84_fits_partial.
Print Assumptions C84_len_refuted.
Print Assumptions C84_readonly_refuted.
Print Assumptions C84_fits_refuted.
