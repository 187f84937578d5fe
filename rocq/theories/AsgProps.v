(** C55 and C61: what the compiler accepts in assignments and calls is safe. *)
From Verif Require Import Base OpsProps AsgModel AsgSpec.

Lemma is_form_iff : forall f g, is_form f g = true <-> f = g.
Proof. intros f g. unfold is_form. destruct f, g; cbn; split; intros; try reflexivity; discriminate. Qed.
Lemma is_comp_iff : forall f g, is_comp f g = true <-> f = g.
Proof. intros f g. destruct f, g; cbn; split; intros; try reflexivity; discriminate. Qed.
Ltac b2p := repeat match goal with
  | H : _ && _ = true |- _ => apply andb_true_iff in H; destruct H
  | H : is_form _ _ = true |- _ => apply is_form_iff in H
  | H : is_comp _ _ = true |- _ => apply is_comp_iff in H
  | H : Nat.eqb _ _ = true |- _ => apply Nat.eqb_eq in H
  | H : Nat.eqb _ _ = false |- _ => apply Nat.eqb_neq in H
  | H : (_ =? _) = true |- _ => apply Z.eqb_eq in H
  | H : (_ =? _) = false |- _ => apply Z.eqb_neq in H
  | H : (_ <? _) = true |- _ => apply Z.ltb_lt in H
  | H : (_ <? _) = false |- _ => apply Z.ltb_ge in H
  | H : (_ <=? _) = true |- _ => apply Z.leb_le in H
  end.

Section WithTable.
Variable E : env.
Notation T t := (str E t).
Hypothesis TB : table E.

(** ** Chains of base types *)
Lemma extends_trans : forall a b c, extends E a b -> extends E b c -> extends E a c.
Proof. intros a b c H. revert c. induction H; intros; auto. eapply ext_step; eauto. Qed.
Lemma walk_some : forall fuel q p r, walk E fuel (Some q) p = Ok (Some r) -> scomp (T q) = Record_ -> extends E q p.
Proof.
  induction fuel as [|k IH]; intros q p r H R; cbn [walk] in H;
    destruct (Nat.eqb q p || Nat.eqb q (undftyp E)) eqn:Q; try discriminate.
  - apply orb_true_iff in Q as [Q|Q]; apply Nat.eqb_eq in Q; subst; [constructor|].
    rewrite (t_undfc E TB) in R. discriminate.
  - apply orb_true_iff in Q as [Q|Q]; apply Nat.eqb_eq in Q; subst; [constructor|].
    rewrite (t_undfc E TB) in R. discriminate.
  - destruct (baseof E q) as [b|] eqn:B; [|destruct k; discriminate].
    unfold baseof in B. eapply ext_step; eauto. eapply IH; eauto. eapply (t_rbase E TB); eauto.
Qed.
Lemma parts_prefix : forall y x, extends E y x -> forall ps, hparts E y ps ->
  exists a c, ps = a ++ c /\ hparts E x a.
Proof.
  intros y x H. induction H; intros ps P.
  - exists ps, []. rewrite app_nil_r. auto.
  - inversion P; subst.
    + congruence.
    + rewrite H0 in H2. inversion H2; subst.
      destruct (IHextends _ H3) as (a & e & -> & A).
      exists a, (e ++ [fs]). rewrite app_assoc. auto.
Qed.
Lemma extends_record : forall d b, extends E d b -> scomp (T b) = Record_ -> scomp (T d) = Record_.
Proof. intros d b H. destruct H; auto. Qed.

(** ** Parameter lists *)
Lemma comp_proc : forall t, sform (T t) = FProc -> scomp (T t) = Basic.
Proof.
  intros t H. destruct (scomp (T t)) eqn:C; auto; exfalso;
  (assert (sform (T t) = FComp) by (apply (t_comp E TB); rewrite C; discriminate)); congruence.
Qed.
Lemma form_comp : forall t, scomp (T t) <> Basic -> sform (T t) = FComp.
Proof. intros. apply (t_comp E TB); auto. Qed.

Scheme same_mut := Induction for same Sort Prop
  with same_params_mut := Induction for same_params Sort Prop.
Combined Scheme same_both from same_mut, same_params_mut.

Lemma same_sym_both :
  (forall a b, same E a b -> same E b a) /\ (forall p q, same_params E p q -> same_params E q p).
Proof.
  apply same_both; intros.
  - constructor.
  - eapply same_open; eauto.
  - apply same_proc; auto.
  - constructor.
  - constructor; auto.
Qed.
Lemma same_trans_both :
  (forall a b, same E a b -> forall c, same E b c -> same E a c) /\
  (forall p q, same_params E p q -> forall r, same_params E q r -> same_params E p r).
Proof.
  apply same_both; intros.
  - auto.
  - inversion H0; subst.
    + eapply same_open; eauto.
    + match goal with B : sbase (T b) = Some ?u, B' : sbase (T b) = Some ?w |- _ =>
        lazymatch u with w => fail | _ => assert (u = w) by congruence end end.
      subst. eapply same_open; [| | | |apply H; eauto]; eauto.
    + match goal with B : sform (T b) = FProc |- _ => apply comp_proc in B end. congruence.
  - inversion H0; subst.
    + apply same_proc; auto.
    + apply comp_proc in e0. congruence.
    + apply same_proc; auto. congruence.
  - auto.
  - inversion H1; subst. constructor; auto. congruence.
Qed.
Lemma holds_same : forall a b, same E a b -> forall v, holds E a v -> holds E b v.
Proof.
  intros a b H. induction H using same_ind; intros v Hv; auto.
  - pose proof (form_comp a ltac:(rewrite H; discriminate)) as F.
    inversion Hv; subst; try congruence.
    + destruct H4 as [X|[X|X]]; congruence.
    + pose proof (t_sysptr E TB). congruence.
    + eapply h_open; eauto. rewrite H1 in H5. inversion H5; subst.
      eapply Forall_impl; [|eassumption]. auto.
  - pose proof (comp_proc a H) as C.
    inversion Hv; subst; try congruence.
    + apply h_nil. auto.
    + pose proof (t_sysptr E TB). congruence.
    + eapply h_proc; eauto; [congruence|].
      apply (proj2 same_trans_both) with (q := slink (T a)); auto. apply (proj2 same_sym_both); auto.
Qed.

Lemma strip_same : forall fuel f a f' a', strip E fuel f a = Ok (f', a') -> same E f' a' -> same E f a.
Proof.
  induction fuel as [|k IH]; intros f a f' a' H S; cbn [strip] in H;
    destruct (is_comp (fcomp E f) DynArr && is_comp (fcomp E a) DynArr) eqn:C; try discriminate;
    try (inversion H; subst; auto; fail).
  b2p. apply bind_inv in H as (fb & F & H). apply bind_inv in H as (ab & A & H).
  unfold deref, baseof in F, A.
  destruct (sbase (T f)) eqn:FB; [|discriminate]. destruct (sbase (T a)) eqn:AB; [|discriminate].
  inversion F; inversion A; subst. eapply same_open; eauto.
Qed.
Lemma params_same : forall fuel fp ap c, CheckParameters E fuel fp ap c = Ok [] -> same_params E fp ap.
Proof.
  induction fuel as [|k IH]; intros fp ap c H; [discriminate|]. cbn [CheckParameters] in H.
  destruct fp as [|f fp], ap as [|a ap]; try discriminate; [constructor| |].
  - apply bind_inv in H as (e & H1 & H). discriminate.
  - apply bind_inv in H as ([ft at_] & S & H). apply bind_inv in H as (e1 & H1 & H).
    apply bind_inv in H as (e3 & H3 & H). injection H as H. apply app_eq_nil in H as [-> H].
    apply app_eq_nil in H as [H2 ->].
    destruct (negb (pmode f =? pmode a)) eqn:M; [discriminate|]. apply negb_false_iff in M. b2p.
    constructor; auto; [|eapply IH; eauto].
    eapply strip_same; eauto.
    destruct (Nat.eqb ft at_) eqn:Q; b2p; [subst; constructor|].
    destruct (is_form (fform E ft) FProc && is_form (fform E at_) FProc) eqn:P; [|discriminate]. b2p.
    unfold baseof in H1.
    destruct (sbase (T ft)) eqn:B1, (sbase (T at_)) eqn:B2; try discriminate.
    + destruct (Nat.eqb t t0) eqn:B; [|discriminate]. b2p. subst.
      apply same_proc; auto; [congruence|]. eapply IH; eauto.
    + apply same_proc; auto; [congruence|]. eapply IH; eauto.
Qed.

(** ** Assignment *)
Lemma sysptr_basic : scomp (T (sysptrtyp E)) = Basic.
Proof.
  destruct (scomp (T (sysptrtyp E))) eqn:C; auto; exfalso;
  pose proof (form_comp (sysptrtyp E) ltac:(rewrite C; discriminate)); pose proof (t_sysptr E TB); congruence.
Qed.
Ltac inv_holds H := inversion H; subst; try congruence;
  try (match goal with X : _ \/ _ \/ _ |- _ => destruct X as [X|[X|X]] end; congruence);
  try (pose proof (t_sysptr E TB); congruence);
  try (pose proof sysptr_basic; congruence).

Ltac uniq := repeat match goal with
  | B : sbase (T ?y) = Some ?u, B' : sbase (T ?y) = Some ?w |- _ =>
      lazymatch u with w => fail | _ => idtac end;
      let Q := fresh in assert (Q : u = w) by congruence; subst u || subst w; clear B' || clear B
  end.

Lemma pointer_safe : forall fuel x y v, sform (T x) = FPointer ->
  assign_pointer E fuel x y = Ok [] -> holds E y v -> holds E x v.
Proof.
  intros fuel x y v X H V. unfold assign_pointer in H.
  destruct (Nat.eqb x y || is_form (fform E y) FNil || Nat.eqb x (sysptrtyp E) && is_form (fform E y) FPointer) eqn:Q.
  - apply orb_true_iff in Q as [Q|Q]; [apply orb_true_iff in Q as [Q|Q]|]; b2p.
    + subst; auto.
    + unfold fform in Q.
      assert (scomp (T y) = Basic) by (destruct (scomp (T y)) eqn:C; auto; exfalso;
        pose proof (form_comp y ltac:(rewrite C; discriminate)); congruence).
      inv_holds V. apply h_nil. auto.
    + subst. unfold fform in *. 
      assert (scomp (T y) = Basic) by (destruct (scomp (T y)) eqn:C; auto; exfalso;
        pose proof (form_comp y ltac:(rewrite C; discriminate)); congruence).
      inv_holds V; try (apply h_nil; auto; fail); apply h_sysptr.
  - apply orb_false_iff in Q as [Q Q3]. apply orb_false_iff in Q as [Q1 Q2].
    destruct (is_form (fform E y) FPointer) eqn:G; [|discriminate].
    rewrite andb_true_r in Q3. b2p.
    apply bind_inv in H as (p & P & H). apply bind_inv in H as (q & Q & H).
    destruct (is_comp (fcomp E p) Record_ && is_comp (fcomp E q) Record_) eqn:R; [|discriminate]. b2p.
    apply bind_inv in H as (r & W & H). destruct r as [r|]; [|discriminate].
    apply walk_some in W; auto. unfold deref, baseof in P, Q.
    destruct (sbase (T x)) eqn:BX; [|discriminate]. destruct (sbase (T y)) eqn:BY; [|discriminate].
    inversion P; inversion Q; subst. unfold fform in G.
    assert (scomp (T y) = Basic) by (destruct (scomp (T y)) eqn:C; auto; exfalso;
        pose proof (form_comp y ltac:(rewrite C; discriminate)); congruence).
    inv_holds V.
    + apply h_nil; auto.
    + uniq. eapply h_ptr; eauto. eapply extends_trans; eauto.
    + rewrite (t_sysptrb E TB) in BY. inversion BY; subst. unfold fcomp in H1. rewrite (t_undfc E TB) in H1. discriminate.
Qed.

Lemma record_safe : forall fuel x y v old, scomp (T x) = Record_ ->
  assign_record E fuel x y = Ok [] -> holds E y v -> exists v', stored old v v' /\ holds E x v'.
Proof.
  intros fuel x y v old X H V. unfold assign_record in H.
  destruct (Nat.eqb x y) eqn:Q; b2p.
  - subst. exists v. split; auto. constructor.
  - destruct (is_comp (fcomp E y) Record_) eqn:R; [|discriminate]. b2p. unfold fcomp in R.
    apply bind_inv in H as (r & W & H). destruct r as [r|]; [|discriminate].
    unfold baseof in W. destruct (sbase (T y)) as [b|] eqn:B; [|destruct fuel; discriminate].
    pose proof (t_rbase E TB _ _ R B) as RB.
    apply walk_some in W; auto.
    pose proof (form_comp y ltac:(rewrite R; discriminate)).
    inv_holds V.
    destruct (parts_prefix y x) with (ps := ps) as (a & c & -> & A); auto.
    { eapply ext_step; eauto. }
    exists (VRec a). split; [apply st_parts|apply h_rec; auto].
Qed.

Lemma Forall_skipn : forall A (P : A -> Prop) n l, Forall P l -> Forall P (skipn n l).
Proof.
  intros A P n. induction n; intros l H; cbn [skipn]; auto.
  destruct l; auto. inversion H; auto.
Qed.
Lemma string_fits : forall x b s o, scomp (T x) = Array -> sbase (T x) = Some b -> sform (T b) = FChar ->
  Z.of_nat (length s) + 1 <= sn (T x) -> Forall (fun c => 0 <= c < 256) s ->
  Z.of_nat (length o) = sn (T x) -> Forall (holds E b) o ->
  stored (VArr o) (VStr s) (VArr (map VChar (s ++ [0]) ++ skipn (Datatypes.S (length s)) o)) /\
  holds E x (VArr (map VChar (s ++ [0]) ++ skipn (Datatypes.S (length s)) o)).
Proof.
  intros. split.
  - apply st_string; auto. lia.
  - eapply h_arr; eauto.
    + rewrite app_length, map_length, app_length, skipn_length. cbn [length]. lia.
    + apply Forall_app. split; [|apply Forall_skipn; auto].
      apply Forall_forall. intros w W. apply in_map_iff in W as (c & <- & C).
      apply h_char; auto. apply in_app_iff in C as [C|[C|[]]]; [|lia].
      rewrite Forall_forall in H3. auto.
Qed.

(** ** C55: an accepted assignment stores a value of the destination's type *)
Theorem C55_accepted_is_safe : forall fuel x yn n' v old,
  variable E x -> sform (T x) <> FReal -> sform (T x) <> FLReal -> good_node E yn ->
  CheckAssign E fuel x yn = Ok ([], n') ->
  denotes E yn v -> holds E x old ->
  exists v', stored old v v' /\ holds E x v'.
Proof.
  intros fuel x yn n' v old VX NR NL (GS & GL & GC & GH) H D O.
  unfold CheckAssign in H. apply bind_inv in H as (e & H & H'). injection H' as H' _.
  apply app_eq_nil in H' as [E0 ->].
  destruct (nclass yn =? Ntype) eqn:NT; [discriminate|]. cbn [orb] in E0.
  unfold denotes in D. unfold variable in VX.
  assert (ID : forall f, f <> FComp -> sform (T (ntyp yn)) = f -> scomp (T (ntyp yn)) = Basic).
  { intros f F1 F2. destruct (scomp (T (ntyp yn))) eqn:C; auto; exfalso;
      pose proof (form_comp (ntyp yn) ltac:(rewrite C; discriminate)); congruence. }
  destruct (nclass yn =? Nproc) eqn:NP.
  - (* a procedure name *)
    cbn [andb] in E0. destruct (is_form (fform E x) FProc) eqn:FX; [|discriminate]. b2p.
    rewrite FX in H. unfold CheckProc in H.
    destruct ((omode (nobj yn) =? XProc) || (omode (nobj yn) =? IProc) || (omode (nobj yn) =? LProc)); [|discriminate].
    apply bind_inv in H as (e2 & H2 & H). injection H as H. apply app_eq_nil in H as [_ ->].
    unfold baseof in H2. destruct (sbase (T x)) as [b|] eqn:B; [|discriminate].
    destruct (Nat.eqb b (otyp (nobj yn))) eqn:Q; [|discriminate]. b2p.
    apply params_same in H2. exists v. split; [constructor|]. subst v.
    eapply h_proc; eauto. congruence.
  - clear E0.
    destruct (sform (T x)) eqn:FX; try contradiction; try congruence;
      change (fform E x) with (sform (T x)) in H; rewrite FX in H.
    + (* SYSTEM.BYTE *)
      injection H as H.
      destruct ((is_form (fform E (ntyp yn)) FByte || is_form (fform E (ntyp yn)) FChar
                 || is_form (fform E (ntyp yn)) FInt) && (ssize (T (ntyp yn)) =? 1)) eqn:Q; [|discriminate].
      b2p. unfold fform in H0.
      apply orb_true_iff in H0 as [H0|H0]; [apply orb_true_iff in H0 as [H0|H0]|]; b2p;
        rewrite H0 in D; cbn in D; rewrite ?andb_false_r in D.
      * pose proof (ID FByte ltac:(discriminate) H0). inv_holds D. exists (VByte b). split; [constructor|].
        apply h_byte; auto.
      * assert (exists c, v = VChar c /\ 0 <= c < 256) as (c & -> & C).
        { rewrite andb_true_r in D. destruct (nclass yn =? Nconst); [eauto|].
          pose proof (ID FChar ltac:(discriminate) H0). inv_holds D. eauto. }
        exists (VByte c). split; [apply st_byte_char; auto|apply h_byte; auto].
      * pose proof (ID FInt ltac:(discriminate) H0). inv_holds D.
        match goal with I : in_int _ z |- _ => rewrite H1 in I; apply in_int8 in I end.
        exists (VByte (z mod 256)). split; [apply st_byte_int; lia|apply h_byte; auto].
        apply Z.mod_pos_bound. lia.
    + (* BOOLEAN *)
      injection H as H. destruct (is_form (fform E (ntyp yn)) FBool) eqn:Q; [|discriminate]. b2p.
      unfold fform in Q. rewrite Q in D. cbn in D; rewrite ?andb_false_r in D.
      pose proof (ID FBool ltac:(discriminate) Q). inv_holds D. exists (VBool b). split; [constructor|].
      apply h_bool; auto.
    + (* CHAR *)
      injection H as H. destruct (is_form (fform E (ntyp yn)) FChar) eqn:Q; [|discriminate]. b2p.
      unfold fform in Q. rewrite Q in D. cbn in D; rewrite ?andb_false_r in D.
      exists v. split; [constructor|]. rewrite andb_true_r in D. destruct (nclass yn =? Nconst).
      * subst. apply h_char; auto.
      * pose proof (ID FChar ltac:(discriminate) Q). inv_holds D. apply h_char; auto.
    + (* integers *)
      injection H as H. destruct (is_form (fform E (ntyp yn)) FInt) eqn:Q; [|discriminate]. b2p.
      cbn [negb orb] in H. destruct (ssize (T x) <? ssize (T (ntyp yn))) eqn:L; [discriminate|]. b2p.
      unfold fform in Q. rewrite Q in D. cbn in D; rewrite ?andb_false_r in D.
      pose proof (ID FInt ltac:(discriminate) Q). inv_holds D. exists (VInt z). split; [constructor|].
      apply h_int; auto. unfold in_int in *.
      pose proof (t_size E TB (ntyp yn) ltac:(auto)).
      pose proof (Z.pow_le_mono_r 2 (8 * ssize (T (ntyp yn)) - 1) (8 * ssize (T x) - 1) ltac:(lia) ltac:(lia)). lia.
    + (* sets *)
      injection H as H. destruct (is_form (fform E (ntyp yn)) FSet) eqn:Q; [|discriminate]. b2p.
      cbn [negb orb] in H. destruct (ssize (T x) <? ssize (T (ntyp yn))) eqn:L; [discriminate|]. b2p.
      unfold fform in Q. rewrite Q in D. cbn in D; rewrite ?andb_false_r in D.
      pose proof (ID FSet ltac:(discriminate) Q). inv_holds D. exists (VSet s). split; [constructor|].
      apply h_set; auto. unfold in_uint in *.
      pose proof (t_size E TB (ntyp yn) ltac:(auto)).
      pose proof (Z.pow_le_mono_r 2 (8 * ssize (T (ntyp yn))) (8 * ssize (T x)) ltac:(lia) ltac:(lia)). lia.
    + (* pointers *)
      exists v. split; [constructor|]. eapply pointer_safe; eauto.
      destruct (sform (T (ntyp yn))) eqn:G; cbn in D; rewrite ?andb_false_r, ?andb_true_r in D; auto;
      exfalso; unfold assign_pointer in H;
      destruct (Nat.eqb x (ntyp yn)) eqn:Q; b2p; [congruence| |congruence|];
      unfold fform in H; rewrite G in H; cbn in H; rewrite ?andb_false_r in H; discriminate.
    + (* procedure variables *)
      injection H as H. destruct (Nat.eqb x (ntyp yn) || is_form (fform E (ntyp yn)) FNil) eqn:Q; [|discriminate].
      apply orb_true_iff in Q as [Q|Q]; b2p.
      * exists v. split; [constructor|]. rewrite <- Q, FX in D. cbn in D. rewrite !andb_false_r in D. auto.
      * unfold fform in Q. rewrite Q in D. cbn in D. rewrite !andb_false_r in D.
        pose proof (ID FNil ltac:(discriminate) Q). inv_holds D. exists VNil. split; [constructor|]. apply h_nil; auto.
    + (* composite types *)
      unfold fcomp in H.
      destruct (scomp (T x)) eqn:CX; try discriminate.
      * (* arrays *)
        cbn [is_form num Z.eqb Pos.eqb is_comp andb] in H.
        assert (exists b, sbase (T x) = Some b) as [b B] by (apply (t_abase E TB); auto).
        assert (exists o, old = VArr o /\ Z.of_nat (length o) = sn (T x) /\ Forall (holds E b) o) as (o & -> & LO & FO).
        { inv_holds O. uniq. eauto. }
        change (is_form FComp FComp) with true in H. cbn [andb] in H.
        destruct ((nclass yn =? Nconst) && is_form (fform E (ntyp yn)) FChar) eqn:CS.
        { (* a character constant *)
          b2p. unfold fform in H1. rewrite H0, H1 in D. cbn in D. subst v.
          unfold assign_array in H. cbn [CharToString ntyp nlen] in H.
          destruct (Nat.eqb x (stringtyp E)) eqn:Q; b2p.
          { subst x. rewrite (t_stringc E TB) in CX. discriminate. }
          unfold fcomp in H. rewrite (t_stringc E TB) in H. cbn [is_comp andb] in H.
          destruct (isbase E x (chartyp E)) eqn:IB; [|discriminate].
          unfold isbase, baseof in IB. rewrite B in IB. b2p. subst b.
          unfold fform in H. rewrite (t_string E TB) in H. change (is_form FString FString) with true in H. cbv iota in H.
          destruct ((if nch yn =? 0 then 1 else 2) >? sn (T x)) eqn:L; [discriminate|].
          rewrite Z.gtb_ltb in L. b2p.
          destruct (string_fits x (chartyp E) (if nch yn =? 0 then [] else [nch yn]) o) as [S1 S2]; auto.
          { apply (t_char E TB). }
          { destruct (nch yn =? 0); cbn [length]; lia. }
          { destruct (nch yn =? 0); repeat constructor; lia. }
          eexists. split; [apply st_char_string; exact S1|exact S2]. }
        unfold assign_array in H.
        destruct (Nat.eqb x (ntyp yn)) eqn:Q; b2p.
        { exists v. split; [constructor|]. rewrite <- Q, FX in D. cbn in D. rewrite !andb_false_r in D. auto. }
        destruct (is_comp (fcomp E (ntyp yn)) Array && samebase E (ntyp yn) x && (sn (T (ntyp yn)) <=? sn (T x))) eqn:A; b2p.
        { unfold fcomp in H0. unfold samebase, baseof in H2. rewrite B in H2.
          destruct (sbase (T (ntyp yn))) eqn:BY; [|discriminate]. b2p. subst t.
          pose proof (form_comp (ntyp yn) ltac:(rewrite H0; discriminate)) as FY.
          rewrite FY in D. cbn in D. rewrite !andb_false_r in D.
          inv_holds D. uniq.
          exists (VArr (l ++ skipn (length l) o)). split.
          - apply st_array; auto. lia.
          - eapply h_arr; eauto.
            + rewrite app_length, skipn_length. lia.
            + apply Forall_app. split; auto. apply Forall_skipn. auto. }
        destruct (is_comp (fcomp E (ntyp yn)) DynArr && samebase E (ntyp yn) x); [discriminate|].
        destruct (isbase E x (chartyp E)) eqn:IB; [|discriminate].
        unfold isbase, baseof in IB. rewrite B in IB. b2p. subst b.
        destruct (is_form (fform E (ntyp yn)) FString) eqn:G; [|discriminate]. b2p. unfold fform in G.
        destruct (nlen yn >? sn (T x)) eqn:L; [discriminate|]. rewrite Z.gtb_ltb in L. b2p.
        rewrite (GS G), G in D. cbn in D. subst v.
        destruct (string_fits x (chartyp E) (nstr yn) o) as [S1 S2]; auto; [apply (t_char E TB)|lia|].
        eexists. split; [exact S1|exact S2].
      * (* records *)
        assert (AR : assign_record E fuel x (ntyp yn) = Ok []) by exact H.
        eapply record_safe; eauto.
        assert (FY : sform (T (ntyp yn)) = FComp).
        { unfold assign_record in AR. destruct (Nat.eqb x (ntyp yn)) eqn:Q; b2p; [congruence|].
          destruct (is_comp (fcomp E (ntyp yn)) Record_) eqn:R; [|discriminate]. b2p. unfold fcomp in R.
          apply form_comp. rewrite R. discriminate. }
        rewrite FY in D. cbn in D. rewrite !andb_false_r in D. auto.
Qed.

(** ** Numbers as reals *)
(** A REAL goes to a LONGREAL unchanged, and an integer type of at most two bytes to a REAL or of
    at most four bytes to a LONGREAL. *)
Definition exact_real (x y : tid) : Prop :=
  sform (T x) = FReal /\ (sform (T y) = FReal \/ sform (T y) = FInt /\ ssize (T y) <= 2) \/
  sform (T x) = FLReal /\ (sform (T y) = FLReal \/ sform (T y) = FReal \/ sform (T y) = FInt /\ ssize (T y) <= 4).
Theorem C55_reals : forall fuel x yn n' v old,
  nclass yn <> Nproc -> exact_real x (ntyp yn) ->
  CheckAssign E fuel x yn = Ok ([], n') -> denotes E yn v ->
  exists v', stored old v v' /\ holds E x v'.
Proof.
  intros fuel x yn n' v old NP X H D. unfold denotes in D. apply Z.eqb_neq in NP. rewrite NP in D.
  assert (BASIC : forall f, f <> FComp -> sform (T (ntyp yn)) = f -> scomp (T (ntyp yn)) = Basic).
  { intros f F1 F2. destruct (scomp (T (ntyp yn))) eqn:C; auto; exfalso;
      pose proof (form_comp (ntyp yn) ltac:(rewrite C; discriminate)); congruence. }
  assert (P24 : 2 ^ 24 <= 2 ^ 53) by (apply Z.pow_le_mono_r; lia).
  assert (INT : forall z w k, in_int (8 * w) z -> 0 < w <= k -> Z.abs z <= 2 ^ (8 * k - 1)).
  { intros z w k I W. unfold in_int in I.
    pose proof (Z.pow_le_mono_r 2 (8 * w - 1) (8 * k - 1) ltac:(lia) ltac:(lia)). lia. }
  destruct X as [[X [Y|[Y L]]]|[X [Y|[Y|[Y L]]]]]; rewrite Y in D; cbn in D; rewrite ?andb_false_r in D.
  - pose proof (BASIC FReal ltac:(discriminate) Y). inv_holds D. exists (VReal m e). split; [constructor|]. apply h_real; auto.
  - pose proof (BASIC FInt ltac:(discriminate) Y). inv_holds D. exists (VReal z 0). split.
    + apply st_real; lia.
    + pose proof (t_size E TB (ntyp yn) ltac:(auto)).
      pose proof (INT z (ssize (T (ntyp yn))) 2 ltac:(assumption) ltac:(lia)).
      pose proof (Z.pow_lt_mono_r 2 (8 * 2 - 1) 24 ltac:(lia) ltac:(lia) ltac:(lia)).
      apply h_real; auto; lia.
  - pose proof (BASIC FLReal ltac:(discriminate) Y). inv_holds D. exists (VReal m e). split; [constructor|]. apply h_lreal; auto.
  - pose proof (BASIC FReal ltac:(discriminate) Y). inv_holds D. exists (VReal m e). split; [constructor|]. apply h_lreal; auto; lia.
  - pose proof (BASIC FInt ltac:(discriminate) Y). inv_holds D. exists (VReal z 0). split.
    + apply st_real; lia.
    + pose proof (t_size E TB (ntyp yn) ltac:(auto)).
      pose proof (INT z (ssize (T (ntyp yn))) 4 ltac:(assumption) ltac:(lia)).
      pose proof (Z.pow_lt_mono_r 2 (8 * 4 - 1) 53 ltac:(lia) ltac:(lia) ltac:(lia)).
      apply h_lreal; auto; lia.
Qed.

(** ** The check ends and does not refuse safe assignments *)
Section Ranked.
Variable rank : tid -> nat.
Hypothesis RK : ranked E rank.
Lemma walk_ends : forall fuel q p, (scomp (T q) = Record_ \/ q = undftyp E) -> (rank q < fuel)%nat ->
  exists r, walk E fuel (Some q) p = Ok r.
Proof.
  destruct RK as (R1 & _ & _).
  induction fuel as [|k IH]; intros q p R L; [lia|]. cbn [walk].
  destruct (Nat.eqb q p || Nat.eqb q (undftyp E)) eqn:Q; [eauto|].
  apply orb_false_iff in Q as [Q1 Q2]. b2p. destruct R as [R|R]; [|congruence].
  unfold baseof. destruct (sbase (T q)) as [b|] eqn:B.
  - apply IH; [left; eapply (t_rbase E TB); eauto|]. pose proof (R1 _ _ R B). lia.
  - destruct k; cbn [walk]; eauto.
Qed.
Lemma walk_finds : forall d b, extends E d b -> scomp (T b) = Record_ -> forall fuel, (rank d < fuel)%nat ->
  walk E fuel (Some d) b = Ok (Some b).
Proof.
  destruct RK as (R1 & _ & _). intros d b H. induction H; intros B fuel L.
  - destruct fuel; cbn [walk]; rewrite Nat.eqb_refl; reflexivity.
  - destruct fuel as [|k]; [lia|]. cbn [walk].
    destruct (Nat.eqb d b) eqn:Q; b2p; [subst; reflexivity|].
    destruct (Nat.eqb d (undftyp E)) eqn:Q2; b2p.
    { subst. rewrite (t_undfc E TB) in H. discriminate. }
    cbn [orb]. unfold baseof. rewrite H0. apply IHextends; auto. pose proof (R1 _ _ H H0). lia.
Qed.
Lemma strip_ends : forall fuel f a, (rank f < fuel)%nat ->
  exists f' a', strip E fuel f a = Ok (f', a') /\ (rank f' <= rank f)%nat.
Proof.
  destruct RK as (_ & R2 & _).
  induction fuel as [|k IH]; intros f a L; [lia|]. cbn [strip].
  destruct (is_comp (fcomp E f) DynArr && is_comp (fcomp E a) DynArr) eqn:C; [|eauto].
  b2p. unfold fcomp in *.
  destruct (t_abase E TB f ltac:(auto)) as [fb FB]. destruct (t_abase E TB a ltac:(auto)) as [ab AB].
  unfold baseof. rewrite FB, AB. cbn [deref bind]. pose proof (R2 _ _ H FB).
  destruct (IH fb ab ltac:(lia)) as (f' & a' & -> & L'). exists f', a'. split; auto. lia.
Qed.
Lemma params_end : forall n fp, (forall p, In p fp -> (rank (ptyp p) < n)%nat) -> forall c ap,
  exists k, forall fuel, (k <= fuel)%nat -> exists e, CheckParameters E fuel fp ap c = Ok e.
Proof.
  destruct RK as (_ & _ & R3).
  induction n as [n IHn] using lt_wf_ind. intros fp. induction fp as [|f fp IHl]; intros R c ap.
  - exists 1%nat. intros fuel L. destruct fuel; [lia|]. cbn [CheckParameters]. destruct ap; eauto.
  - destruct ap as [|a ap].
    + destruct (IHl (fun p P => R p (or_intror P)) c []) as [k K]. exists (Datatypes.S k). intros fuel L.
      destruct fuel; [lia|]. cbn [CheckParameters]. destruct (K fuel ltac:(lia)) as [e ->]. cbn [bind]. eauto.
    + destruct (IHl (fun p P => R p (or_intror P)) c ap) as [k1 K1].
      pose proof (R f (or_introl eq_refl)) as RF.
      assert (SUB : exists k2, forall fuel f' a', (k2 <= fuel)%nat -> 
        strip E (Datatypes.S (rank (ptyp f))) (ptyp f) (ptyp a) = Ok (f', a') ->
        sform (T f') = FProc -> exists e, CheckParameters E fuel (slink (T f')) (slink (T a')) false = Ok e).
      { destruct (strip_ends (Datatypes.S (rank (ptyp f))) (ptyp f) (ptyp a) ltac:(lia)) as (f' & a' & S & L').
        destruct (sform (T f')) eqn:FP;
          try (exists 0%nat; intros fuel f2 a2 _ S2 F2; rewrite S in S2; inversion S2; subst; congruence).
        destruct (IHn (rank f') ltac:(lia) (slink (T f')) (fun p P => R3 _ _ FP P) false (slink (T a'))) as [k2 K2].
        exists k2. intros fuel f2 a2 L2 S2 F2. rewrite S in S2. inversion S2; subst. auto. }
      destruct SUB as [k2 K2].
      assert (MONO : forall j f0 a0 r, strip E j f0 a0 = Ok r -> strip E (Datatypes.S j) f0 a0 = Ok r).
      { induction j as [|j IHj]; intros f0 a0 r S; cbn [strip] in *;
          destruct (is_comp (fcomp E f0) DynArr && is_comp (fcomp E a0) DynArr); auto; try discriminate.
        apply bind_inv in S as (x1 & -> & S). apply bind_inv in S as (x2 & -> & S). cbn [bind].
        apply IHj. auto. }
      assert (MONO' : forall d j f0 a0 r, strip E j f0 a0 = Ok r -> strip E (d + j)%nat f0 a0 = Ok r).
      { induction d; intros; cbn [Nat.add]; auto. }
      exists (Datatypes.S (k1 + k2 + Datatypes.S (rank (ptyp f)))). intros fuel L. destruct fuel as [|fuel]; [lia|].
      cbn [CheckParameters].
      destruct (strip_ends (Datatypes.S (rank (ptyp f))) (ptyp f) (ptyp a) ltac:(lia)) as (f' & a' & S & L').
      pose proof (MONO' (fuel - Datatypes.S (rank (ptyp f)))%nat _ _ _ _ S) as S2.
      replace (fuel - Datatypes.S (rank (ptyp f)) + Datatypes.S (rank (ptyp f)))%nat with fuel in S2 by lia.
      rewrite S2. cbn [bind].
      destruct (K1 fuel ltac:(lia)) as [e3 ->].
      assert (exists e1, (if Nat.eqb f' a' then Ok []
            else if is_form (fform E f') FProc && is_form (fform E a') FProc then
              if (match baseof E f', baseof E a' with
                  | Some x, Some y => Nat.eqb x y | None, None => true | _, _ => false end)
              then CheckParameters E fuel (slink (T f')) (slink (T a')) false
              else Ok [117]
            else Ok [115]) = Ok e1) as [e1 ->].
      { destruct (Nat.eqb f' a'); [eauto|].
        destruct (is_form (fform E f') FProc && is_form (fform E a') FProc) eqn:P; [|eauto]. b2p.
        match goal with |- context [if ?b then _ else Ok [117]] => destruct b end; [|eauto].
        eapply K2; eauto. lia. }
      cbn [bind]. eauto.
Qed.

Theorem C55_terminates : forall x yn,
  exists k, forall fuel, (k <= fuel)%nat -> exists r, CheckAssign E fuel x yn = Ok r.
Proof.
  intros x yn. unfold CheckAssign.
  assert (SUF : (exists k, forall fuel, (k <= fuel)%nat -> exists e, (match fform E x with
    | FUndef | FString => Ok []
    | FByte =>
        Ok (if (is_form (fform E (ntyp yn)) FByte || is_form (fform E (ntyp yn)) FChar || is_form (fform E (ntyp yn)) FInt) && (ssize (T (ntyp yn)) =? 1)
            then [] else [113])
    | FBool | FChar => Ok (if is_form (fform E (ntyp yn)) (fform E x) then [] else [113])
    | FInt | FSet => Ok (if negb (is_form (fform E (ntyp yn)) (fform E x)) || (ssize (T x) <? ssize (T (ntyp yn))) then [113] else [])
    | FReal => Ok (if between FInt (fform E (ntyp yn)) FReal then [] else [113])
    | FLReal => Ok (if between FInt (fform E (ntyp yn)) FLReal then [] else [113])
    | FPointer => assign_pointer E fuel x (ntyp yn)
    | FProc =>
        if nclass yn =? Nproc then CheckProc E fuel x (nobj yn)
        else Ok (if Nat.eqb x (ntyp yn) || is_form (fform E (ntyp yn)) FNil then [] else [113])
    | FNoTyp | FNil => Ok [113]
    | FComp =>
        match fcomp E x with
        | Array => assign_array E x (if is_form (fform E x) FComp && is_comp (fcomp E x) Array && (nclass yn =? Nconst) && is_form (fform E (ntyp yn)) FChar
    then CharToString E yn else yn)
        | Record_ => assign_record E fuel x (ntyp yn)
        | _ => Ok [113]
        end
    end = Ok e))).
  { destruct (fform E x) eqn:FX; try (exists 0%nat; intros; eauto; fail); unfold fform in FX.
    - (* pointers *)
      destruct (t_pbase E TB x FX) as [p P].
      destruct (is_form (fform E (ntyp yn)) FPointer) eqn:G.
      + b2p. destruct (t_pbase E TB (ntyp yn) G) as [q Q].
        exists (Datatypes.S (rank q)). intros fuel L. unfold assign_pointer.
        destruct (Nat.eqb x (ntyp yn) || is_form (fform E (ntyp yn)) FNil || Nat.eqb x (sysptrtyp E) && is_form (fform E (ntyp yn)) FPointer); [eauto|].
        rewrite G. unfold baseof. rewrite P, Q. cbn [deref bind].
        destruct (is_form FPointer FPointer); [|eauto].
        destruct (is_comp (fcomp E p) Record_ && is_comp (fcomp E q) Record_) eqn:R; [|eauto]. b2p.
        destruct (walk_ends fuel q p ltac:(auto) ltac:(lia)) as [r ->]. cbn [bind]. eauto.
      + exists 0%nat. intros fuel _. unfold assign_pointer. rewrite G.
        destruct (Nat.eqb x (ntyp yn) || is_form (fform E (ntyp yn)) FNil || Nat.eqb x (sysptrtyp E) && false); eauto.
    - (* procedures *)
      destruct (nclass yn =? Nproc); [|exists 0%nat; eauto].
      destruct RK as (_ & _ & R3).
      destruct (params_end (rank x) (slink (T x)) (fun p P => R3 _ _ FX P) false (olink (nobj yn))) as [k K].
      exists k. intros fuel L. unfold CheckProc.
      destruct ((omode (nobj yn) =? XProc) || (omode (nobj yn) =? IProc) || (omode (nobj yn) =? LProc)); [|eauto].
      match goal with |- context [if ?b then CheckParameters _ _ _ _ _ else _] => destruct b end; cbn [bind]; [|eauto].
      destruct (K fuel L) as [e ->]. cbn [bind]. eauto.
    - (* composite types *)
      destruct (fcomp E x) eqn:CX; try (exists 0%nat; intros; eauto; fail).
      + exists 0%nat. intros fuel _. unfold assign_array.
        repeat match goal with |- exists e, (if ?b then _ else _) = Ok e => destruct b; eauto end.
      + exists (match sbase (T (ntyp yn)) with Some b => Datatypes.S (rank b) | None => 0%nat end). intros fuel L.
        unfold assign_record. destruct (Nat.eqb x (ntyp yn)); [eauto|].
        destruct (is_comp (fcomp E (ntyp yn)) Record_) eqn:R; [|eauto]. b2p. unfold baseof.
        destruct (sbase (T (ntyp yn))) as [b|] eqn:B.
        * destruct (walk_ends fuel b x ltac:(left; eapply (t_rbase E TB); eauto) ltac:(lia)) as [r ->]. cbn [bind]. eauto.
        * destruct fuel; cbn [walk bind]; eauto. }
  destruct SUF as [k K]. exists k. intros fuel L. destruct (K fuel L) as [e ->]. cbn [bind]. eauto.
Qed.

(** What is not refused: an integer or set of no larger size, an array of the same elements and no
    larger length, a string that fits with its 0X, an extension of a record type, a pointer to an
    extension. *)
Theorem C55_complete : forall x yn fuel, nclass yn <> Ntype -> nclass yn <> Nproc ->
  (rank (ntyp yn) < fuel)%nat -> (forall b, sbase (T (ntyp yn)) = Some b -> (rank b < fuel)%nat) ->
  (sform (T x) = FInt \/ sform (T x) = FSet) /\ sform (T (ntyp yn)) = sform (T x) /\ ssize (T (ntyp yn)) <= ssize (T x) \/
  scomp (T x) = Array /\ scomp (T (ntyp yn)) = Array /\ sbase (T (ntyp yn)) = sbase (T x) /\ sn (T (ntyp yn)) <= sn (T x) \/
  scomp (T x) = Array /\ sbase (T x) = Some (chartyp E) /\ sform (T (ntyp yn)) = FString /\ nlen yn <= sn (T x) \/
  scomp (T x) = Record_ /\ extends E (ntyp yn) x \/
  sform (T x) = FPointer /\ sform (T (ntyp yn)) = FPointer /\
    (exists p q, sbase (T x) = Some p /\ sbase (T (ntyp yn)) = Some q /\
     scomp (T p) = Record_ /\ extends E q p) ->
  CheckAssign E fuel x yn = Ok ([], yn).
Proof.
  intros x yn fuel N1 N2 RY RB H. unfold CheckAssign.
  apply Z.eqb_neq in N1, N2. rewrite N1, N2. cbn [andb orb].
  assert (IFR : forall f, is_form f f = true) by (intros; apply is_form_iff; auto).
  assert (ICR : forall f, is_comp f f = true) by (intros; apply is_comp_iff; auto).
  assert (NC : forall t f, sform (T t) = f -> f <> FComp -> scomp (T t) = Basic).
  { intros t f F1 F2. destruct (scomp (T t)) eqn:C; auto; exfalso;
      pose proof (form_comp t ltac:(rewrite C; discriminate)); congruence. }
  destruct H as [(X & Y & L)|[(X & Y & B & L)|[(X & B & Y & L)|[(X & Y)|(X & Y & p & q & P & Q & R & EX)]]]].
  - unfold fform. destruct X as [X|X]; rewrite X in *; rewrite Y, IFR; cbn [negb orb is_form num];
    (replace (ssize (T x) <? ssize (T (ntyp yn))) with false by (symmetry; apply Z.ltb_ge; lia)); reflexivity.
  - pose proof (form_comp x ltac:(rewrite X; discriminate)) as FX.
    pose proof (form_comp (ntyp yn) ltac:(rewrite Y; discriminate)) as FY.
    unfold fform, fcomp. rewrite FX, FY, X. rewrite !andb_false_r.
    unfold assign_array. destruct (Nat.eqb x (ntyp yn)); [reflexivity|].
    unfold fcomp, samebase, baseof. rewrite Y, B. cbn [is_comp andb].
    replace (match sbase (T x) with Some a => match sbase (T x) with Some b => Nat.eqb a b | None => false end
             | None => match sbase (T x) with Some _ => false | None => true end end) with true
      by (destruct (sbase (T x)); auto; symmetry; apply Nat.eqb_refl).
    cbn [andb]. replace (sn (T (ntyp yn)) <=? sn (T x)) with true by (symmetry; apply Z.leb_le; lia). reflexivity.
  - pose proof (form_comp x ltac:(rewrite X; discriminate)) as FX.
    pose proof (NC _ _ Y ltac:(discriminate)) as CY.
    unfold fform, fcomp. rewrite FX, Y, X. change (is_form FString FChar) with false. rewrite !andb_false_r.
    unfold assign_array. destruct (Nat.eqb x (ntyp yn)); [reflexivity|].
    unfold fcomp, fform, isbase, baseof. rewrite CY, B, Y, IFR, Nat.eqb_refl. cbn [is_comp andb].
    replace (nlen yn >? sn (T x)) with false by (symmetry; rewrite Z.gtb_ltb; apply Z.ltb_ge; lia). reflexivity.
  - pose proof (form_comp x ltac:(rewrite X; discriminate)) as FX.
    pose proof (extends_record _ _ Y X) as RYC.
    pose proof (form_comp (ntyp yn) ltac:(rewrite RYC; discriminate)) as FY.
    unfold fform, fcomp. rewrite FX, FY, X. rewrite !andb_false_r.
    unfold assign_record. destruct (Nat.eqb x (ntyp yn)) eqn:Q; [reflexivity|]. b2p.
    unfold fcomp, baseof. rewrite RYC. cbn [is_comp].
    inversion Y; subst; [congruence|]. rewrite H0.
    rewrite (walk_finds c x); auto.
  - pose proof (extends_record _ _ EX R) as RQ. unfold fform. rewrite X, Y. cbn [is_form num Z.eqb andb].
    unfold assign_pointer.
    destruct (Nat.eqb x (ntyp yn) || is_form (fform E (ntyp yn)) FNil || Nat.eqb x (sysptrtyp E) && is_form (fform E (ntyp yn)) FPointer); [reflexivity|].
    unfold fform. rewrite Y, IFR. unfold baseof. rewrite P, Q. cbn [deref bind]. unfold fcomp. rewrite R, RQ.
    cbn [is_comp andb]. rewrite (walk_finds q p); auto.
Qed.
End Ranked.

(** ** Parameters *)
Lemma shape_arr : forall l m, shape (VArr l) (VArr m) -> length l = length m /\ Forall2 shape l m.
Proof.
  induction l as [|a l IH]; intros [|b m] H; cbn in H; try contradiction; [auto|].
  destruct H as [H1 H2]. destruct (IH m H2). cbn [length]. split; [lia|]. constructor; auto.
Qed.
Lemma dynarr_var : forall fuel f a, scomp (T f) = DynArr -> ~ elem E f (bytetyp E) ->
  DynArrParCheck E fuel f a true = Ok [] ->
  (forall v, holds E a v -> holds E f v) /\
  (forall old w, holds E a old -> holds E f w -> shape old w -> holds E a w).
Proof.
  induction fuel as [|k IH]; intros f a F NB H; [discriminate|]. cbn [DynArrParCheck] in H.
  destruct (t_abase E TB f ltac:(auto)) as [fb FB].
  unfold baseof in H at 1. rewrite FB in H. cbn [deref bind] in H.
  destruct (Nat.eqb fb (bytetyp E)) eqn:Q; b2p.
  { subst. exfalso. apply NB. eapply el_here; eauto. }
  cbn [andb] in H.
  destruct (is_comp (fcomp E a) Array || is_comp (fcomp E a) DynArr) eqn:C; [|discriminate].
  assert (CA : scomp (T a) = Array \/ scomp (T a) = DynArr)
    by (apply orb_true_iff in C as [C|C]; b2p; auto). clear C.
  destruct (t_abase E TB a CA) as [ab AB]. unfold baseof in H at 1. rewrite AB in H. cbn [deref bind] in H.
  pose proof (form_comp a ltac:(destruct CA; congruence)) as FA.
  pose proof (form_comp f ltac:(congruence)) as FF.
  assert (SUB : (forall v, holds E ab v -> holds E fb v) /\
                (forall old w, holds E ab old -> holds E fb w -> shape old w -> holds E ab w)).
  { destruct (is_comp (fcomp E fb) DynArr) eqn:D; b2p.
    - apply IH; auto. intros X. apply NB. eapply el_deep; eauto.
    - destruct (Nat.eqb fb ab) eqn:QQ; b2p; [subst; auto|]. discriminate. }
  destruct SUB as [S1 S2]. split.
  - intros v V. destruct CA as [CA|CA]; inv_holds V; uniq; eapply h_open; eauto; eapply Forall_impl; eauto.
  - intros old w O W S.
    assert (exists m, w = VArr m /\ Forall (holds E fb) m) as (m & -> & M).
    { inv_holds W. uniq. eauto. }
    destruct CA as [CA|CA]; inv_holds O; uniq; apply shape_arr in S as [L S].
    + eapply h_arr; eauto; [congruence|].
      match goal with X : Forall (holds E _) ?q, Y : Forall2 shape ?q _ |- _ => rename X into LL end.
      clear - S2 S LL M. induction S; auto. inversion LL; inversion M; subst. constructor; eauto.
    + eapply h_open; eauto.
      match goal with X : Forall (holds E _) ?q, Y : Forall2 shape ?q _ |- _ => rename X into LL end.
      clear - S2 S LL M. induction S; auto. inversion LL; inversion M; subst. constructor; eauto.
Qed.
Lemma notvar : forall n, NotVar n = false -> designates n.
Proof.
  intros n H. unfold NotVar in H. unfold designates. apply andb_false_iff in H as [H|H].
  - left. rewrite Z.geb_leb in H. apply Z.leb_gt in H. auto.
  - right. apply orb_false_iff in H as [H1 H2]. apply negb_false_iff in H1. b2p. split; auto.
    destruct (nval n) as [c|]; [|discriminate]. exists c. split; auto.
    rewrite Z.geb_leb in H2. apply Z.leb_gt in H2. auto.
Qed.
Lemma parts_replace : forall a f, extends E a f -> forall ps, hparts E a ps ->
  exists pre post, ps = pre ++ post /\ hparts E f pre /\
    forall pre', hparts E f pre' -> hparts E a (pre' ++ post).
Proof.
  intros a f H. induction H; intros ps P.
  - exists ps, []. rewrite app_nil_r. conjs; auto. intros. rewrite app_nil_r. auto.
  - inversion P; subst.
    + congruence.
    + rewrite H0 in H2. inversion H2; subst.
      destruct (IHextends _ H3) as (pre & post & -> & A & R).
      exists pre, (post ++ [fs]). rewrite app_assoc. conjs; auto.
      intros pre' P'. rewrite app_assoc. eapply hp_ext; eauto.
Qed.

(** *** Variable parameters: the argument is a variable that may be written, every value it can have
    is a value of the formal type, and every value of the formal type that the procedure can store
    in it is a value of its own type.  Formals that name SYSTEM.BYTE or SYSTEM.PTR are excepted. *)
Theorem C61_var_parameters : forall fuel ap fp,
  pmode fp = mVarPar -> variable E (ptyp fp) ->
  ptyp fp <> sysptrtyp E -> sform (T (ptyp fp)) <> FByte -> ~ elem E (ptyp fp) (bytetyp E) ->
  scomp (T (ptyp fp)) <> Record_ ->
  Param E fuel ap fp = Ok [] ->
  (designates ap /\ nreadonly ap = false) /\
  (forall v, holds E (ntyp ap) v -> holds E (ptyp fp) v) /\
  (forall old w, holds E (ntyp ap) old -> holds E (ptyp fp) w -> shape old w -> holds E (ntyp ap) w).
Proof.
  intros fuel ap fp M V NS NB NE NR H. unfold Param in H.
  destruct (is_form (fform E (ptyp fp)) FUndef) eqn:U.
  { b2p. unfold variable in V. unfold fform in U. rewrite U in V. contradiction. }
  rewrite M in H. change (mVarPar =? mVarPar) with true in H. cbv iota in H.
  apply bind_inv in H as (e3 & H3 & H). injection H as H.
  apply app_eq_nil in H as [E1 H]. apply app_eq_nil in H as [E2 ->].
  split; [split; [apply notvar; destruct (NotVar ap)|destruct (nreadonly ap)]; auto; discriminate|].
  destruct (is_comp (fcomp E (ptyp fp)) DynArr) eqn:D; b2p.
  { eapply dynarr_var; eauto. }
  destruct (is_comp (fcomp E (ptyp fp)) Record_) eqn:R; b2p; [contradiction|]. cbn [andb] in H3.
  apply Nat.eqb_neq in NS. rewrite NS in H3. cbn [andb] in H3.
  assert (NB' : is_form (fform E (ptyp fp)) FByte = false)
    by (destruct (is_form (fform E (ptyp fp)) FByte) eqn:B; auto; b2p; contradiction).
  rewrite NB' in H3. cbn [andb negb] in H3. rewrite andb_true_r in H3.
  destruct (Nat.eqb (ntyp ap) (ptyp fp)) eqn:Q; b2p; [|discriminate]. rewrite Q. auto.
Qed.
Theorem C61_var_records : forall fuel ap fp,
  pmode fp = mVarPar -> scomp (T (ptyp fp)) = Record_ ->
  Param E fuel ap fp = Ok [] ->
  (designates ap /\ nreadonly ap = false) /\
  extends E (ntyp ap) (ptyp fp) /\
  forall ps, hparts E (ntyp ap) ps ->
    exists pre post, ps = pre ++ post /\ hparts E (ptyp fp) pre /\
    forall pre', hparts E (ptyp fp) pre' -> hparts E (ntyp ap) (pre' ++ post).
Proof.
  intros fuel ap fp M R H. unfold Param in H. pose proof (form_comp (ptyp fp) ltac:(congruence)) as FF.
  unfold fform at 1 in H. rewrite FF in H. change (is_form FComp FUndef) with false in H. cbv iota in H.
  rewrite M in H. change (mVarPar =? mVarPar) with true in H. cbv iota in H.
  apply bind_inv in H as (e3 & H3 & H). injection H as H.
  apply app_eq_nil in H as [E1 H]. apply app_eq_nil in H as [E2 ->].
  split; [split; [apply notvar; destruct (NotVar ap)|destruct (nreadonly ap)]; auto; discriminate|].
  unfold fcomp in H3. rewrite R in H3. cbn [is_comp andb] in H3.
  assert (EX : extends E (ntyp ap) (ptyp fp)).
  { destruct (scomp (T (ntyp ap))) eqn:C; cbn [is_comp] in H3;
      try (destruct (Nat.eqb (ptyp fp) (sysptrtyp E)) eqn:Q; b2p;
           [rewrite Q, sysptr_basic in R; discriminate|]; cbn [andb] in H3;
           unfold fform in H3; rewrite FF in H3; change (is_form FComp FByte) with false in H3;
           cbn [andb negb] in H3; rewrite andb_true_r in H3;
           destruct (Nat.eqb (ntyp ap) (ptyp fp)) eqn:QQ; b2p; [congruence|discriminate]).
    apply bind_inv in H3 as (r & W & H3). destruct r as [r|]; [|discriminate].
    eapply walk_some; eauto. }
  split; auto. intros ps P. eapply parts_replace; eauto.
Qed.

Lemma dynarr_val : forall fuel f a, scomp (T f) = DynArr ->
  DynArrParCheck E fuel f a false = Ok [] -> forall v, holds E a v -> holds E f v.
Proof.
  induction fuel as [|k IH]; intros f a F H; [discriminate|]. cbn [DynArrParCheck] in H.
  destruct (t_abase E TB f ltac:(auto)) as [fb FB].
  unfold baseof in H at 1. rewrite FB in H. cbn [deref bind andb] in H.
  destruct (is_comp (fcomp E a) Array || is_comp (fcomp E a) DynArr) eqn:C; [|discriminate].
  assert (CA : scomp (T a) = Array \/ scomp (T a) = DynArr)
    by (apply orb_true_iff in C as [C|C]; b2p; auto). clear C.
  destruct (t_abase E TB a CA) as [ab AB]. unfold baseof in H at 1. rewrite AB in H. cbn [deref bind] in H.
  pose proof (form_comp a ltac:(destruct CA; congruence)) as FA.
  assert (SUB : forall v, holds E ab v -> holds E fb v).
  { destruct (is_comp (fcomp E fb) DynArr) eqn:D; b2p; [apply IH; auto|].
    destruct (Nat.eqb fb ab) eqn:QQ; b2p; [subst; auto|]. cbn [negb andb] in H.
    destruct (is_form (fform E fb) FPointer && is_form (fform E ab) FPointer) eqn:P; [|discriminate].
    apply andb_true_iff in P as [P1 P2]. b2p.
    intros v V. apply (pointer_safe k fb ab v); auto. unfold assign_pointer.
    destruct (Nat.eqb fb ab || is_form (fform E ab) FNil || Nat.eqb fb (sysptrtyp E) && is_form (fform E ab) FPointer); [reflexivity|].
    rewrite P2. change (is_form FPointer FPointer) with true. cbv iota.
    destruct (deref (baseof E fb)) as [x1| | |]; try discriminate. cbn [bind] in *.
    destruct (deref (baseof E ab)) as [x2| | |]; try discriminate. cbn [bind] in *.
    destruct (is_comp (fcomp E x1) Record_ && is_comp (fcomp E x2) Record_); [exact H|discriminate]. }
  intros v V. destruct CA as [CA|CA]; inv_holds V; uniq; eapply h_open; eauto; eapply Forall_impl; eauto.
Qed.
(** *** Value parameters: the value the procedure receives is a value of the formal type. *)
Theorem C61_open_value_parameters : forall fuel ap fp v,
  pmode fp <> mVarPar -> scomp (T (ptyp fp)) = DynArr -> good_node E ap ->
  Param E fuel ap fp = Ok [] -> denotes E ap v ->
  exists v', passed v v' /\ holds E (ptyp fp) v'.
Proof.
  intros fuel ap fp v M D (GS & GL & GC & GH) H DN. unfold Param in H.
  pose proof (form_comp (ptyp fp) ltac:(congruence)) as FF.
  unfold fform at 1 in H. rewrite FF in H. change (is_form FComp FUndef) with false in H. cbv iota in H.
  apply Z.eqb_neq in M. rewrite M in H.
  unfold fcomp in H. rewrite D in H. cbn [is_comp] in H.
  destruct (t_abase E TB (ptyp fp) ltac:(auto)) as [b B].
  unfold baseof in H. rewrite B in H. cbn [deref bind] in H. unfold fform in H.
  assert (STR : forall s, sform (T b) = FChar -> Forall (fun c => 0 <= c < 256) s ->
    holds E (ptyp fp) (VArr (map VChar (s ++ [0])))).
  { intros s FC S. eapply h_open; eauto. apply Forall_forall. intros w W.
    apply in_map_iff in W as (c & <- & C). apply h_char; auto.
    apply in_app_iff in C as [C|[C|[]]]; [|lia]. rewrite Forall_forall in S. auto. }
  unfold denotes in DN.
  destruct ((nclass ap =? Nconst) && is_form (sform (T (ntyp ap))) FChar) eqn:CC.
  - b2p. rewrite H0, H1 in DN. cbn in DN. subst v.
    cbn [CharToString ntyp nclass] in H. rewrite (t_string E TB) in H.
    change (is_form FString FString) with true in H. cbn [andb] in H.
    destruct (is_form (sform (T b)) FChar) eqn:FC; b2p; [|rewrite H0 in H; discriminate].
    eexists. split; [apply pa_char|]. apply STR; auto. destruct (nch ap =? 0); repeat constructor; lia.
  - destruct (is_form (sform (T (ntyp ap))) FString) eqn:S; cbn [andb] in H.
    + b2p. rewrite (GS S) in *. cbn in DN. subst v.
      destruct (is_form (sform (T b)) FChar) eqn:FC; b2p; [|discriminate].
      eexists. split; [apply pa_string|]. apply STR; auto.
    + destruct (nclass ap >=? Nconst) eqn:NC; [discriminate|].
      rewrite Z.geb_leb in NC. apply Z.leb_gt in NC.
      replace (nclass ap =? Nproc) with false in DN by (symmetry; apply Z.eqb_neq; unfold Nconst, Nproc in *; lia).
      replace (nclass ap =? Nconst) with false in DN by (symmetry; apply Z.eqb_neq; lia). cbn [andb] in DN.
      exists v. split; [constructor|]. eapply dynarr_val; eauto.
Qed.
Theorem C61_value_parameters : forall fuel ap fp v old,
  pmode fp <> mVarPar -> scomp (T (ptyp fp)) <> DynArr -> variable E (ptyp fp) ->
  sform (T (ptyp fp)) <> FReal -> sform (T (ptyp fp)) <> FLReal -> good_node E ap ->
  Param E fuel ap fp = Ok [] -> denotes E ap v -> holds E (ptyp fp) old ->
  exists v', stored old v v' /\ holds E (ptyp fp) v'.
Proof.
  intros fuel ap fp v old M D V R1 R2 G H DN O. unfold Param in H.
  destruct (is_form (fform E (ptyp fp)) FUndef) eqn:U.
  { b2p. unfold variable in V. unfold fform in U. rewrite U in V. contradiction. }
  apply Z.eqb_neq in M. rewrite M in H.
  destruct (is_comp (fcomp E (ptyp fp)) DynArr) eqn:DD; b2p; [contradiction|].
  apply bind_inv in H as ([e n'] & H1 & H). cbn [fst] in H. injection H as ->.
  eapply C55_accepted_is_safe; eauto.
Qed.
(** A procedure variable may be called with the arguments its type accepts: each argument is one the
    procedure assigned to it accepts. *)
Theorem C61_procedure_variables : forall t r ps, holds E t (VProc r ps) ->
  sbase (T t) = Some r /\
  Forall2 (fun f p => pmode f = pmode p /\ forall v, holds E (ptyp f) v <-> holds E (ptyp p) v) (slink (T t)) ps.
Proof.
  intros t r ps H. inversion H; subst. split; auto.
  match goal with X : same_params E _ _ |- _ => rename X into SP end. clear H. revert SP. generalize (slink (T t)).
  intros l SP. induction SP; constructor; auto. split; auto. intros v. split; intros V.
  - eapply holds_same; eauto.
  - eapply holds_same; eauto. apply (proj1 same_sym_both). auto.
Qed.
End WithTable.

(** ** A concrete module *)
(** [TYPE P = PROCEDURE (p: P); Q = PROCEDURE (q: Q);] when [rc], otherwise both take a CHAR;
    [Base = RECORD x: INT16 END; Ext = RECORD (Base) y: INT32 END;] with pointers to them, and
    arrays of characters. *)
Definition par (m : Z) (t : tid) : param := {| pmode := m; pname := []; ptyp := t |}.
Definition basic (f : form) (sz : Z) : struct :=
  {| sform := f; scomp := Basic; ssize := sz; sn := 0; sbase := Some 0%nat; slink := []; sfields := [] |}.
Definition ptrto (b : tid) : struct :=
  {| sform := FPointer; scomp := Basic; ssize := 8; sn := 0; sbase := Some b; slink := []; sfields := [] |}.
Definition procty (ps : list param) : struct :=
  {| sform := FProc; scomp := Basic; ssize := 8; sn := 0; sbase := Some 5%nat; slink := ps; sfields := [] |}.
Definition compty (c : cform) (n : Z) (b : option tid) (fs : list tid) : struct :=
  {| sform := FComp; scomp := c; ssize := 1; sn := n; sbase := b; slink := []; sfields := fs |}.
Definition demo (rc : bool) : env :=
  {| undftyp := 0; sysptrtyp := 1; chartyp := 2; bytetyp := 3; stringtyp := 4;
     str := fun t => match t with
       | 1 => ptrto 0
       | 2 => basic FChar 1
       | 3 => basic FByte 1
       | 4 => basic FString 1
       | 5 => basic FNoTyp 1
       | 6 => procty [par mVar (if rc then 6 else 2)]
       | 7 => procty [par mVar (if rc then 7 else 2)]
       | 8 => basic FInt 2
       | 9 => basic FInt 4
       | 10 => basic FReal 4
       | 11 => compty Record_ 0 None [8]
       | 12 => compty Record_ 0 (Some 11) [9]
       | 13 => ptrto 11
       | 14 => ptrto 12
       | 15 => compty Array 4 (Some 2) []
       | 16 => compty DynArr 0 (Some 2) []
       | 17 => compty DynArr 0 (Some 16) []
       | 18 => basic FBool 1
       | _ => basic FUndef 1
       end%nat |}.
Lemma demo_table : forall rc, table (demo rc).
Proof.
  intros rc.
  assert (ALL : forall t, exists u, (u < 20)%nat /\ str (demo rc) t = str (demo rc) u).
  { intros t. destruct (le_lt_dec 20 t) as [L|L]; [|eauto].
    exists 19%nat. split; [lia|]. do 20 (destruct t as [|t]; [lia|]). reflexivity. }
  constructor; try reflexivity;
  intros t; destruct (ALL t) as (u & L & ->); clear t;
  do 20 (destruct u as [|u]; [cbn;
    try (split; intros; congruence); try (intros; eauto; discriminate);
    try (intros [X|X]; discriminate); try (intros [X|X]; eauto);
    try (intros b R B; inversion B; subst; try discriminate; reflexivity); try lia|]); lia.
Qed.
Definition nd (c : Z) (t : tid) : node :=
  {| nclass := c; nval := None; ntyp := t; nreadonly := false; nch := 0; nstr := []; nlen := 1;
     nobj := {| omode := XProc; olev := 0; otyp := 5; olink := [par mVar 7] |} |}.
Definition strnode (s : list Z) : node :=
  {| nclass := Nconst; nval := None; ntyp := 4; nreadonly := false; nch := 0; nstr := s;
     nlen := Z.of_nat (length s) + 1; nobj := nobj (nd 0 0) |}.

(** *** Recursive procedure types: the check never ends.  With
    [TYPE P = PROCEDURE (p: P); Q = PROCEDURE (q: Q); VAR v: P; PROCEDURE X (q: Q);]
    the assignment [v := X] makes the compiler recurse without end, so [C55_terminates] needs the
    hypothesis that nests of procedure types are finite. *)
Theorem C55_recursive_procedure_types_never_end : forall fuel,
  CheckAssign (demo true) fuel 6 (nd Nproc 5) = Fuel.
Proof.
  assert (CP : forall fuel, CheckParameters (demo true) fuel [par mVar 6] [par mVar 7] false = Fuel).
  { induction fuel as [|k IH]; [reflexivity|]. cbn [CheckParameters].
    assert (S : strip (demo true) k (ptyp (par mVar 6)) (ptyp (par mVar 7)) = Ok (6, 7)%nat) by (destruct k; reflexivity).
    rewrite S. cbn [bind]. change (Nat.eqb 6 7) with false. cbv iota.
    change (is_form (fform (demo true) 6) FProc && is_form (fform (demo true) 7) FProc) with true. cbv iota.
    change (match baseof (demo true) 6 with Some x => match baseof (demo true) 7 with Some y => Nat.eqb x y | None => false end
            | None => match baseof (demo true) 7 with Some _ => false | None => true end end) with true. cbv iota.
    change (slink (str (demo true) 6)) with [par mVar 6]. change (slink (str (demo true) 7)) with [par mVar 7].
    rewrite IH. reflexivity. }
  intros fuel. unfold CheckAssign. change (fform (demo true) 6) with FProc. cbv iota.
  change (nclass (nd Nproc 5) =? Nproc) with true. cbv iota. unfold CheckProc.
  change (omode (nobj (nd Nproc 5)) =? XProc) with true. cbn [orb]. cbv iota.
  change (match baseof (demo true) 6 with Some b => Nat.eqb b (otyp (nobj (nd Nproc 5))) | None => false end) with true.
  cbv iota. change (slink (str (demo true) 6)) with [par mVar 6].
  change (olink (nobj (nd Nproc 5))) with [par mVar 7]. rewrite CP. reflexivity.
Qed.
(** *** The exception of [C55_reals]: a four-byte integer goes to a REAL, which rounds it. *)
Theorem C55_integers_to_real_round : exists v,
  CheckAssign (demo false) 0 10 (nd Nvar 9) = Ok ([], nd Nvar 9) /\ denotes (demo false) (nd Nvar 9) v /\
  forall old v', stored old v v' -> ~ holds (demo false) 10 v'.
Proof.
  exists (VInt 16777217). split; [reflexivity|]. split.
  - cbn. apply h_int; [reflexivity|]. cbn. apply in_int32. lia.
  - intros old v' S H. inversion S; subst; inversion H; subst; try discriminate.
    match goal with A : 0 <= e -> _, B : e < 0 -> _ |- _ => rename A into P; rename B into N end.
    change (2 ^ 24) with 16777216 in *.
    destruct (Z_lt_le_dec e 0) as [L|L].
    + specialize (N L). pose proof (Z.pow_pos_nonneg 2 (- e) ltac:(lia) ltac:(lia)). nia.
    + specialize (P L). destruct (Z.eq_dec e 0) as [->|NE]; [change (2 ^ 0) with 1 in P; lia|].
      replace e with (Z.succ (e - 1)) in P by lia. rewrite Z.pow_succ_r in P by lia.
      assert (16777217 = 2 * (m * 2 ^ (e - 1))) by (rewrite P; ring). lia.
Qed.
(** *** The exceptions of [C61_var_parameters]: a variable of type Ext pointer passed to a variable
    parameter of type SYSTEM.PTR can be made to point to a Base, and a BOOLEAN variable passed to a
    parameter of type SYSTEM.BYTE can be given any byte. *)
Theorem C61_system_types_are_exceptions :
  Param (demo false) 5 (nd Nvar 14) (par mVarPar 1) = Ok [] /\
  holds (demo false) 1 (VPtr 11) /\ ~ holds (demo false) 14 (VPtr 11) /\
  Param (demo false) 5 (nd Nvar 18) (par mVarPar 3) = Ok [] /\
  holds (demo false) 3 (VByte 2) /\ ~ holds (demo false) 18 (VByte 2).
Proof.
  conjs; try reflexivity.
  - apply (h_sysptr (demo false)).
  - intros H. inversion H; subst.
    match goal with B : sbase _ = Some _ |- _ => cbn in B; inversion B; subst end.
    match goal with X : extends _ 11%nat 12%nat |- _ => inversion X; subst end.
    match goal with B : sbase _ = Some _ |- _ => cbn in B; discriminate end.
  - apply h_byte; [reflexivity|lia].
  - intros H. inversion H; subst. discriminate.
Qed.

(** ** The hypotheses are met *)
Definition demo_rank (t : tid) : nat :=
  match t with 12 => 2 | 11 => 1 | 17 => 2 | 16 => 1 | 6 | 7 => 1 | _ => 0 end%nat.
Example demo_ranked : ranked (demo false) demo_rank.
Proof.
  unfold ranked; conjs; intros t b.
  - do 20 (destruct t as [|t]; [cbn; intros A B; try discriminate; inversion B; subst; cbn; lia|]). discriminate.
  - do 20 (destruct t as [|t]; [cbn; intros A B; try discriminate; inversion B; subst; cbn; lia|]). discriminate.
  - do 20 (destruct t as [|t]; [cbn; intros A B; try discriminate; try contradiction;
      destruct B as [B|[]]; subst; cbn; lia|]). discriminate.
Qed.
(** INT16 to INT32 but not back; extension to base but not back; pointers; a string of three
    characters fits ARRAY 4 OF CHAR and one of four does not. *)
Example C55_accepts :
  CheckAssign (demo false) 9 9 (nd Nvar 8) = Ok ([], nd Nvar 8) /\
  CheckAssign (demo false) 9 8 (nd Nvar 9) = Ok ([113], nd Nvar 9) /\
  CheckAssign (demo false) 9 11 (nd Nvar 12) = Ok ([], nd Nvar 12) /\
  CheckAssign (demo false) 9 12 (nd Nvar 11) = Ok ([113], nd Nvar 11) /\
  CheckAssign (demo false) 9 13 (nd Nvar 14) = Ok ([], nd Nvar 14) /\
  CheckAssign (demo false) 9 14 (nd Nvar 13) = Ok ([113], nd Nvar 13) /\
  CheckAssign (demo false) 9 15 (strnode [97; 98; 99]) = Ok ([], strnode [97; 98; 99]) /\
  CheckAssign (demo false) 9 15 (strnode [97; 98; 99; 100]) = Ok ([114], strnode [97; 98; 99; 100]) /\
  CheckAssign (demo false) 9 6 (nd Nproc 5) = Ok ([115], nd Nproc 5) /\
  Param (demo false) 9 (strnode [97]) (par mVar 16) = Ok [] /\
  Param (demo false) 9 (nd Nvar 15) (par mVarPar 16) = Ok [] /\
  Param (demo false) 9 (nd Nvar 12) (par mVarPar 11) = Ok [] /\
  Param (demo false) 9 (nd Nvar 11) (par mVarPar 12) = Ok [111] /\
  Param (demo false) 9 (nd Nvar 8) (par mVarPar 9) = Ok [123].
Proof. conjs; reflexivity. Qed.
Example C55_values : exists old v, holds (demo false) 11 old /\ denotes (demo false) (nd Nvar 12) v /\
  good_node (demo false) (nd Nvar 12) /\ good_node (demo false) (strnode [97]).
Proof.
  exists (VRec [[VInt 7]]), (VRec ([[VInt 1]] ++ [[VInt 70000]])). conjs.
  - apply h_rec; [reflexivity|]. apply hp_root; [reflexivity|]. cbn. repeat constructor.
    all: cbn; unfold in_int; try lia; apply in_int16; lia.
  - cbn. apply h_rec; [reflexivity|]. apply (hp_ext (demo false) 12 11 [[VInt 1]] [VInt 70000]); [reflexivity| |].
    + apply hp_root; [reflexivity|]. cbn. constructor; [|constructor]. apply h_int; [reflexivity|]. cbn. apply in_int16. lia.
    + cbn. constructor; [|constructor]. apply h_int; [reflexivity|]. cbn. apply in_int32. lia.
  - unfold good_node. cbn. conjs. discriminate.
  - unfold good_node. cbn. conjs. repeat constructor; lia.
Qed.
Print Assumptions C55_accepted_is_safe.
Print Assumptions C55_reals.
Print Assumptions C55_terminates.
Print Assumptions C55_complete.
Print Assumptions C55_recursive_procedure_types_never_end.
Print Assumptions C55_integers_to_real_round.
Print Assumptions C61_var_parameters.
Print Assumptions C61_var_records.
Print Assumptions C61_open_value_parameters.
Print Assumptions C61_value_parameters.
Print Assumptions C61_procedure_variables.
Print Assumptions C61_system_types_are_exceptions.
