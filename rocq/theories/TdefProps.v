(** C88: types are defined in the generated C before they are used, and once. *)
From Verif Require Import Base TdefModel TdefSpec.
Require Import Coq.Relations.Relation_Operators Coq.Relations.Operators_Properties Coq.Wellfounded.Transitive_Closure.
Local Open Scope list_scope.

Lemma bind_inv : forall A B (m : res A) (k : A -> res B) b, bind m k = Ok b -> exists a, m = Ok a /\ k a = Ok b.
Proof. intros A B [a| | |] k b H; cbn in H; try discriminate. exists a. auto. Qed.
Section Table.
Variable tab : list node.
Notation nd := (nd tab).
Notation part := (part tab).
Notation complete := (complete tab).
Notation solid := (solid tab).
Notation DefineType := (DefineType tab).

Lemma each_ind : forall A (g : A -> state -> res state) (Q : state -> state -> Prop), (forall s, Q s s) -> (forall a b c, Q a b -> Q b c -> Q a c) ->
  forall l, (forall a s s', In a l -> g a s = Ok s' -> Q s s') -> forall s s', each g l s = Ok s' -> Q s s'.
Proof.
  intros A g Q R T l. induction l as [|a l IH]; intros H s s' E; cbn [each] in E; [injection E as <-; auto|]. apply bind_inv in E as (s1 & E1 & E2). eapply T; [eapply H; [left; reflexivity|exact E1]|]. eapply IH; eauto. intros. eapply H; [right; eassumption|eassumption].
Qed.
Lemma errs_mono : forall f t s s', DefineType f t s = Ok s' -> (errs s <= errs s')%nat.
Proof.
  induction f as [|f IH]; intros t s s' E; cbn [TdefModel.DefineType] in E; [discriminate|].
  assert (EA : forall l a b, each (DefineType f) l a = Ok b -> (errs a <= errs b)%nat).
  { intros l a b H. apply (each_ind _ (DefineType f) (fun a b => (errs a <= errs b)%nat)) with (l := l); auto; intros; [lia|]. eapply IH; eassumption. }
  destruct (negb (nshown (nd t))); [injection E as <-; auto|]. apply bind_inv in E as (s1 & E1 & E2).
  assert (A : (errs s <= errs s1)%nat).
  { destruct (match nname (nd t) with Anonymous => true | Local => Undefined s t | Outside => false end); [|injection E1 as <-; auto].
    set (s0 := if local tab t then if status_eqb (st s t) Processing then (if is_ptr tab t then s else set (mark s) t Predefined) else set s t Processing else s) in *.
    assert (A0 : (errs s <= errs s0)%nat) by (unfold s0; destruct (local tab t), (status_eqb (st s t) Processing), (is_ptr tab t); cbn; lia).
    destruct (nshape (nd t)) as [|b fs ms|b|b|r ps].
    - injection E1 as <-. auto.
    - apply bind_inv in E1 as (s2 & E1 & E3). apply EA in E1. apply EA in E3. lia.
    - destruct (is_rec tab b); [injection E1 as <-; auto|]. apply IH in E1. lia.
    - apply IH in E1. destruct (local tab b && status_eqb (st s0 b) Processing); cbn in E1; lia.
    - apply bind_inv in E1 as (s2 & E1 & E3). apply EA in E1. apply EA in E3. lia. }
  destruct (local tab t && Undefined s1 t); [|injection E2 as <-; auto].
  destruct (nshape (nd t)) as [|b fs ms|b|b|r ps]; try (injection E2 as <-; cbn; auto).
  assert (B : (errs (set (emit s1 (Def t)) t Defined) <= errs s')%nat).
  { revert E2. apply (each_ind _ _ (fun a b => (errs a <= errs b)%nat)); [auto|intros; lia|]. intros m a b' _ H. apply bind_inv in H as (s2 & H1 & H2). apply EA in H1. destruct (mshown m); [|injection H2 as <-; auto].
    apply bind_inv in H2 as (s3 & H2 & H3). apply bind_inv in H3 as (s4 & H3 & H4). apply EA in H2. apply EA in H3. injection H4 as <-. cbn. lia. }
  cbn in B. lia.
Qed.
(** ** What has been written is in order. *)
Definition owner (i : item) : tid := match i with Def t | Head t _ | Struct t => t end.
Record Inv (s : state) : Prop := {
  i_def : forall t, In (Def t) (out s) <-> st s t = Defined;
  i_pre : forall t, st s t <> Predefined;
  i_once : once (out s);
  i_ord : ordered tab complete (out s);
}.
Definition ext (R : tid -> Prop) (s s' : state) : Prop := exists E, out s' = out s ++ E /\ forall i, In i E -> R (owner i).
Lemma ext_refl : forall R s, ext R s s. Proof. intros R s. exists []. rewrite app_nil_r. split; auto. intros i []. Qed.
Lemma ext_trans : forall R a b c, ext R a b -> ext R b c -> ext R a c.
Proof. intros R a b c (E & A & B) (F & C & D). exists (E ++ F). rewrite C, A, app_assoc. split; auto. intros i H. apply in_app_iff in H as [H|H]; auto. Qed.
Lemma complete_mono : forall D E t, complete D t -> complete (D ++ E) t.
Proof. intros D E t H. induction H as [t H|t H I|t H _ IH]; [apply co_outside; auto|apply co_named; auto; apply in_app_iff; auto|apply co_text; auto]. Qed.
Lemma complete_ext : forall R s s' t, ext R s s' -> complete (out s) t -> complete (out s') t.
Proof. intros R s s' t (E & -> & _) H. apply complete_mono. auto. Qed.
Lemma snoc_split : forall A (l : list A) a X i Y, l ++ [a] = X ++ i :: Y -> (exists Y', Y = Y' ++ [a] /\ l = X ++ i :: Y') \/ Y = [] /\ i = a /\ X = l.
Proof.
  intros A l a X i Y H. destruct Y as [|y Y] using rev_ind.
  - right. apply app_inj_tail in H as [-> ->]. auto.
  - left. clear IHY. change (l ++ [a] = X ++ (i :: Y) ++ [y]) in H. rewrite app_assoc in H. apply app_inj_tail in H as [-> ->]. exists Y. auto.
Qed.
Lemma Inv_set : forall s t, Inv s -> st s t <> Defined -> Inv (set s t Processing).
Proof.
  intros s t [A B C D] N. split; cbn; auto; intros u; specialize (A u); destruct (Nat.eqb_spec u t) as [->|]; auto; try discriminate. rewrite A. split; intros; [congruence|discriminate].
Qed.
Lemma Inv_def : forall s t, Inv s -> st s t <> Defined -> (forall u, part t u -> complete (out s) u) -> Inv (set (emit s (Def t)) t Defined).
Proof.
  intros s t [A B C D] N P. split; cbn.
  - intros u. rewrite in_app_iff. cbn. specialize (A u). destruct (Nat.eqb_spec u t) as [->|K]; [tauto|]. rewrite A. split; [intros [H|[H|[]]]; auto; injection H as ->; congruence|auto].
  - intros u. destruct (Nat.eqb_spec u t); [discriminate|auto].
  - intros X u Y H. apply snoc_split in H as [(Y' & -> & H)|(-> & H & ->)].
    + destruct (C _ _ _ H) as [U V]. split; auto. rewrite in_app_iff. intros [K|[K|[]]]; [auto|]. injection K as ->. apply N. apply A. rewrite H. apply in_elt.
    + injection H as ->. split; auto. intros K. apply A in K. auto.
  - intros X i Y H u Q. apply snoc_split in H as [(Y' & -> & H)|(-> & -> & ->)]; [eapply D; eauto|]. inversion Q; subst. auto.
Qed.
Lemma Inv_item : forall s i, Inv s -> (forall t, i <> Def t) -> (forall u, needs tab i u -> complete (out s) u) -> Inv (emit s i).
Proof.
  intros s i [A B C D] N P. split; cbn; auto.
  - intros u. rewrite in_app_iff, <- A. cbn. split; [intros [H|[H|[]]]; auto; exfalso; apply (N u); auto|auto].
  - intros X u Y H. apply snoc_split in H as [(Y' & -> & H)|(-> & H & ->)]; [|exfalso; apply (N u); auto].
    destruct (C _ _ _ H) as [U V]. split; auto. rewrite in_app_iff. intros [K|[K|[]]]; [auto|]. apply (N u). auto.
  - intros X j Y H u Q. apply snoc_split in H as [(Y' & -> & H)|(-> & -> & ->)]; [eapply D; eauto|]. auto.
Qed.
Lemma each_ok : forall A (g : A -> state -> res state) (C : A -> list item -> Prop) (R : tid -> Prop) l,
  (forall a s s', In a l -> g a s = Ok s' -> (errs s <= errs s')%nat) -> (forall a D E, C a D -> C a (D ++ E)) ->
  (forall a s s', In a l -> g a s = Ok s' -> errs s' = 0%nat -> Inv s -> Inv s' /\ ext R s s' /\ C a (out s')) ->
  forall s s', each g l s = Ok s' -> errs s' = 0%nat -> Inv s -> Inv s' /\ ext R s s' /\ forall a, In a l -> C a (out s').
Proof.
  intros A g C R l. induction l as [|a l IH]; intros M K H s s' E Z I; cbn [each] in E.
  - injection E as <-. split; auto. split; [apply ext_refl|intros ? []].
  - apply bind_inv in E as (s1 & E1 & E2). assert (M2 : (errs s1 <= errs s')%nat).
    { revert E2. apply (each_ind _ g (fun a b => (errs a <= errs b)%nat)); [auto|intros; lia|]. intros. eapply M; [right; eassumption|eassumption]. }
    destruct (H a s s1) as (I1 & X1 & C1); auto; [left; auto|lia|]. destruct (IH (fun a s s' i => M a s s' (or_intror i)) K (fun a s s' i => H a s s' (or_intror i)) s1 s' E2 Z I1) as (I2 & X2 & C2).
    split; auto. split; [eapply ext_trans; eauto|]. intros b [->|B]; auto. destruct X2 as (F & -> & _). apply K. auto.
Qed.
Lemma ext_weaken : forall (R R' : tid -> Prop) s s', (forall t, R t -> R' t) -> ext R s s' -> ext R' s s'.
Proof. intros R R' s s' H (E & A & B). exists E. auto. Qed.
Definition from (t u : tid) : Prop := u = t \/ reaches tab t u.
Lemma from_one : forall t u v, reaches_one tab t u -> from u v -> from t v.
Proof. intros t u v H [->|G]; right; [apply t_step; auto|eapply t_trans; [apply t_step; eassumption|auto]]. Qed.
Hypothesis CL : closed tab.
Lemma define_ok : forall f t s s', DefineType f t s = Ok s' -> errs s' = 0%nat -> Inv s -> nshown (nd t) = true -> Inv s' /\ ext (from t) s s' /\ complete (out s') t.
Proof.
  induction f as [|f IH]; intros t s s' E Z I SH; [discriminate|]. cbn [TdefModel.DefineType] in E. rewrite SH in E. cbn [negb] in E. apply bind_inv in E as (s1 & E1 & E2).
  assert (EA : forall l, (forall u, In u l -> nname (nd t) <> Outside /\ nshown (nd u) = true /\ reaches_one tab t u) -> forall a b, each (DefineType f) l a = Ok b -> errs b = 0%nat -> Inv a -> Inv b /\ ext (from t) a b /\ forall u, In u l -> complete (out b) u).
  { intros l H. apply (each_ok _ (DefineType f) (fun u D => complete D u) (from t) l); [intros; eapply errs_mono; eassumption|intros; apply complete_mono; auto|]. intros u a b U EE ZZ II. destruct (H u U) as (O & SU & RU). destruct (IH u a b EE ZZ II SU) as (P & Q & S). split; auto. split; auto.
    eapply ext_weaken; [|exact Q]. intros v. apply from_one. auto. }
  assert (EM : forall l a b, each (DefineType f) l a = Ok b -> (errs a <= errs b)%nat).
  { intros l a b H. apply (each_ind _ (DefineType f) (fun a b => (errs a <= errs b)%nat)) with (l := l); auto; intros; [lia|]. eapply errs_mono; eassumption. }
  assert (M1 : (errs s1 <= errs s')%nat).
  { destruct (local tab t && Undefined s1 t); [|injection E2 as <-; auto]. destruct (nshape (nd t)) as [|b fs ms|b|b|r ps]; try (injection E2 as <-; cbn; auto).
    change (errs (set (emit s1 (Def t)) t Defined) <= errs s')%nat. revert E2. apply (each_ind _ _ (fun a b => (errs a <= errs b)%nat)); [auto|intros; lia|]. intros m a b' _ H. apply bind_inv in H as (s2 & H1 & H2). apply EM in H1. destruct (mshown m); [|injection H2 as <-; auto].
    apply bind_inv in H2 as (s3 & H2 & H3). apply bind_inv in H3 as (s4 & H3 & H4). apply EM in H2. apply EM in H3. injection H4 as <-. cbn. lia. }
  assert (PR : nname (nd t) <> Outside -> forall u, part t u -> nname (nd t) <> Outside /\ nshown (nd u) = true /\ reaches_one tab t u).
  { intros O u P. split; auto. split; [apply (CL t SH O); auto|]. split; auto. }
  (* the parts *)
  assert (PA : nname (nd t) <> Outside -> forall a, Inv a -> match nshape (nd t) with
      | SBasic => Ok a
      | SRec b fs _ => let* s := each (DefineType f) (opt b) a in each (DefineType f) fs s
      | SPtr b => if is_rec tab b then Ok a else DefineType f b a
      | SArr b => DefineType f b (if local tab b && status_eqb (st a b) Processing then set (mark a) b Predefined else a)
      | SProc r ps => let* s := each (DefineType f) (opt r) a in each (DefineType f) ps s
      end = Ok s1 -> Inv s1 /\ ext (from t) a s1 /\ forall u, part t u -> complete (out s1) u).
  { intros O a IA EX. specialize (PR O). assert (Z1 : errs s1 = 0%nat) by lia. destruct (nshape (nd t)) as [|b fs ms|b|b|r ps] eqn:SH'.
    - injection EX as <-. split; auto. split; [apply ext_refl|]. intros u P. inversion P as [t' b' fs' ms' E'|t' b' fs' ms' u' E' IN|t' b' E' NR|t' b' E'|t' r' ps' E'|t' r' ps' u' E' IN]; congruence.
    - apply bind_inv in EX as (s2 & X1 & X2). assert (Z2 : errs s2 = 0%nat) by (apply EM in X2; lia).
      destruct (EA (opt b)) with (a := a) (b := s2) as (I2 & F2 & C2); auto. { intros u U. apply PR. destruct b as [b|]; [destruct U as [<-|[]]|destruct U]. eapply pt_base; eassumption. }
      destruct (EA fs) with (a := s2) (b := s1) as (I3 & F3 & C3); auto. { intros u U. apply PR. eapply pt_field; eassumption. }
      split; auto. split; [eapply ext_trans; eauto|]. intros u P. inversion P as [t' b' fs' ms' E'|t' b' fs' ms' u' E' IN|t' b' E' NR|t' b' E'|t' r' ps' E'|t' r' ps' u' E' IN]; subst; try congruence.
      + assert (b = Some u) as -> by congruence. eapply complete_ext; [exact F3|]. apply C2. left. auto.
      + apply C3. congruence.
    - destruct (is_rec tab b) eqn:RB.
      + injection EX as <-. split; auto. split; [apply ext_refl|]. intros u P. inversion P as [t' b' fs' ms' E'|t' b' fs' ms' u' E' IN|t' b' E' NR|t' b' E'|t' r' ps' E'|t' r' ps' u' E' IN]; try congruence. subst. exfalso. unfold is_rec, record_type in *. assert (u = b) as -> by congruence. destruct (nshape (nd b)); try discriminate; auto.
      + assert (PB : part t b) by (eapply pt_ptr; [eassumption|]; unfold is_rec, record_type in *; destruct (nshape (nd b)); auto; discriminate).
        destruct (PR b PB) as (_ & SB & RO). destruct (IH b a s1 EX Z1 IA SB) as (I2 & F2 & C2). split; auto. split; [eapply ext_weaken; [|exact F2]; intros v; apply from_one; auto|].
        intros u P. inversion P as [t' b' fs' ms' E'|t' b' fs' ms' u' E' IN|t' b' E' NR|t' b' E'|t' r' ps' E'|t' r' ps' u' E' IN]; try congruence.
    - assert (PB : part t b) by (eapply pt_elem; eassumption). destruct (PR b PB) as (_ & SB & RO). destruct (local tab b && status_eqb (st a b) Processing).
      + apply errs_mono in EX. cbn in EX. lia.
      + destruct (IH b a s1 EX Z1 IA SB) as (I2 & F2 & C2). split; auto. split; [eapply ext_weaken; [|exact F2]; intros v; apply from_one; auto|]. intros u P. inversion P as [t' b' fs' ms' E'|t' b' fs' ms' u' E' IN|t' b' E' NR|t' b' E'|t' r' ps' E'|t' r' ps' u' E' IN]; try congruence.
    - apply bind_inv in EX as (s2 & X1 & X2). assert (Z2 : errs s2 = 0%nat) by (apply EM in X2; lia).
      destruct (EA (opt r)) with (a := a) (b := s2) as (I2 & F2 & C2); auto. { intros u U. apply PR. destruct r as [r|]; [destruct U as [<-|[]]|destruct U]. eapply pt_result; eassumption. }
      destruct (EA ps) with (a := s2) (b := s1) as (I3 & F3 & C3); auto. { intros u U. apply PR. eapply pt_param; eassumption. }
      split; auto. split; [eapply ext_trans; eauto|]. intros u P. inversion P as [t' b' fs' ms' E'|t' b' fs' ms' u' E' IN|t' b' E' NR|t' b' E'|t' r' ps' E'|t' r' ps' u' E' IN]; subst; try congruence.
      + assert (r = Some u) as -> by congruence. eapply complete_ext; [exact F3|]. apply C2. left. auto.
      + apply C3. congruence. }
  unfold local in *. destruct (nname (nd t)) eqn:NT; cbn [andb] in E2.
  - destruct (PA ltac:(discriminate) s I E1) as (I1 & F1 & C1). injection E2 as <-. split; auto. split; auto. apply co_text; auto.
  - destruct (Undefined s t) eqn:U.
    + set (a := if status_eqb (st s t) Processing then (if is_ptr tab t then s else set (mark s) t Predefined) else set s t Processing) in *.
      assert (IA : Inv a /\ ext (from t) s a).
      { assert (ND : st s t <> Defined) by (intros H; unfold Undefined in U; rewrite H in U; discriminate). unfold a. destruct (status_eqb (st s t) Processing) eqn:SP.
        - destruct (is_ptr tab t) eqn:IP; [split; auto; apply ext_refl|]. exfalso. unfold a in E1.
          assert (1 <= errs s1)%nat; [|lia]. change (errs (set (mark s) t Predefined)) with (S (errs s)) in *. clear - E1 EM. 
          assert (G : forall x, errs x = S (errs s) -> match nshape (nd t) with
            | SBasic => Ok x
            | SRec b fs _ => let* s := each (DefineType f) (opt b) x in each (DefineType f) fs s
            | SPtr b => if is_rec tab b then Ok x else DefineType f b x
            | SArr b => DefineType f b (if match nname (nd b) with Local => true | _ => false end && status_eqb (st x b) Processing then set (mark x) b Predefined else x)
            | SProc r ps => let* s := each (DefineType f) (opt r) x in each (DefineType f) ps s
            end = Ok s1 -> (1 <= errs s1)%nat).
          { intros x X H. destruct (nshape (nd t)) as [|b fs ms|b|b|r ps].
            - injection H as <-. lia.
            - apply bind_inv in H as (s2 & X1 & X2). apply EM in X1. apply EM in X2. lia.
            - destruct (is_rec tab b); [injection H as <-; lia|]. apply errs_mono in H. lia.
            - apply errs_mono in H. destruct (_ && _) in H; cbn in H; lia.
            - apply bind_inv in H as (s2 & X1 & X2). apply EM in X1. apply EM in X2. lia. }
          eapply G; [|exact E1]. reflexivity.
        - split; [apply Inv_set; auto|]. exists []. rewrite app_nil_r. split; auto. intros i []. }
      destruct IA as [IA FA]. destruct (PA ltac:(discriminate) a IA E1) as (I1 & F1 & C1). pose proof (ext_trans _ _ _ _ FA F1) as FS. destruct (Undefined s1 t) eqn:U1.
      * assert (ND : st s1 t <> Defined) by (intros H; unfold Undefined in U1; rewrite H in U1; discriminate). pose proof (Inv_def s1 t I1 ND C1) as I2. set (s2 := set (emit s1 (Def t)) t Defined) in *.
        assert (F2 : ext (from t) s s2). { eapply ext_trans; [exact FS|]. exists [Def t]. split; [reflexivity|]. intros i [<-|[]]. left. reflexivity. }
        assert (CT : complete (out s2) t) by (apply co_named; auto; apply in_app_iff; right; left; reflexivity).
        destruct (nshape (nd t)) as [|b fs ms|b|b|r ps] eqn:SH'; try (injection E2 as <-; auto).
        destruct (each_ok _ (fun m s => let* s0 := each (DefineType f) (opt (mres m)) s in if mshown m then let* s1 := each (DefineType f) (opt (mres m)) s0 in let* s2 := each (DefineType f) (mpar m) s1 in Ok (emit s2 (Head t m)) else Ok s0)
          (fun _ _ => True) (from t) ms) with (s := s2) (s' := s') as (I3 & F3 & _); auto.
        -- intros m x y _ H. apply bind_inv in H as (x2 & H1 & H2). apply EM in H1. destruct (mshown m); [|injection H2 as <-; auto].
           apply bind_inv in H2 as (x3 & H2 & H3). apply bind_inv in H3 as (x4 & H3 & H4). apply EM in H2. apply EM in H3. injection H4 as <-. cbn. lia.
        -- intros m x y IM H ZY IX. assert (BM : bound tab t m) by (exists b, fs, ms; auto). apply bind_inv in H as (x2 & H1 & H2).
           assert (RO : forall u, head_type m u -> reaches_one tab t u) by (intros u HU; split; [congruence|]; right; exists m; auto).
           destruct (mshown m) eqn:SM.
           ++ destruct (CL t SH ltac:(congruence)) as [_ CM]. apply bind_inv in H2 as (x3 & H2 & H3). apply bind_inv in H3 as (x4 & H3 & H4). injection H4 as <-. cbn in ZY.
              assert (OK : forall l, (forall u, In u l -> head_type m u) -> forall u, In u l -> Local <> Outside /\ nshown (nd u) = true /\ reaches_one tab t u).
              { intros l HL u U'. split; [discriminate|]. split; [apply (CM m u BM SM); auto|auto]. }
              assert (HR : forall u, In u (opt (mres m)) -> head_type m u) by (intros u U'; destruct (mres m) as [r|] eqn:MR; [destruct U' as [<-|[]]; apply ht_res; auto|destruct U']).
              assert (HP : forall u, In u (mpar m) -> head_type m u) by (intros u U'; apply ht_par; auto).
              pose proof (EM _ _ _ H3) as L3. pose proof (EM _ _ _ H2) as L2.
              destruct (EA _ (OK _ HR) x x2 H1) as (J1 & G1 & K1); auto; [lia|]. destruct (EA _ (OK _ HR) x2 x3 H2) as (J2 & G2 & K2); auto; [lia|]. destruct (EA _ (OK _ HP) x3 x4 H3) as (J3 & G3 & K3); auto.
              split; [|split; auto].
              ** apply Inv_item; auto; [discriminate|]. intros u Q. inversion Q as [| |? ? ? HT]; subst. destruct HT as [r MR|u U']; auto. eapply complete_ext; [exact G3|]. apply K2. rewrite MR. left. auto.
              ** eapply ext_trans; [exact G1|]. eapply ext_trans; [exact G2|]. eapply ext_trans; [exact G3|]. exists [Head t m]. split; [reflexivity|]. intros i [<-|[]]. left. reflexivity.
           ++ injection H2 as <-. destruct (each_ok _ (DefineType f) (fun _ _ => True) (from t) (opt (mres m))) with (s := x) (s' := x2) as (J & G & _); auto; [intros; eapply errs_mono; eassumption|].
              intros u x' y' U' H ZY' IX'. assert (HU : head_type m u) by (destruct (mres m) as [r|] eqn:MR; [destruct U' as [<-|[]]; apply ht_res; auto|destruct U']). destruct (nshown (nd u)) eqn:SU.
              ** destruct (IH u x' y' H ZY' IX' SU) as (P & Q & _). split; auto. split; auto. eapply ext_weaken; [|exact Q]. intros v. apply from_one. auto.
              ** destruct f as [|f']; [discriminate|]. cbn [TdefModel.DefineType] in H. rewrite SU in H. injection H as <-. split; auto. split; [apply ext_refl|auto].
        -- split; auto. split; [eapply ext_trans; eauto|]. eapply complete_ext; eauto.
      * injection E2 as <-. split; auto. split; auto. apply co_named; auto. apply (i_def _ I1). pose proof (i_pre _ I1 t). unfold Undefined in U1. destruct (st s1 t); congruence.
    + injection E1 as <-. rewrite U in E2. injection E2 as <-. split; auto. split; [apply ext_refl|]. apply co_named; auto. apply (i_def _ I). pose proof (i_pre _ I t). unfold Undefined in U. destruct (st s t); congruence.
  - injection E1 as <-. injection E2 as <-. split; auto. split; [apply ext_refl|]. apply co_outside; auto.
Qed.
Lemma Inv_init : Inv (mk (fun _ => Undef) 0 []).
Proof. split; cbn; try discriminate; [intros t; split; [intros []|discriminate]|intros [] ? ? H; discriminate|intros [] ? ? H; discriminate]. Qed.
(** ** Structures of records without a name. *)
Lemma solid_mono : forall D E t, solid D t -> solid (D ++ E) t.
Proof.
  intros D E t H. induction H as [t H|t H I|t H R I|t H R _ IH]; [apply so_outside; auto|apply so_named; auto; apply in_app_iff; auto|apply so_struct; auto; apply in_app_iff; auto|apply so_text; auto].
Qed.
Lemma record_dec : forall t, record_type tab t \/ ~ record_type tab t.
Proof. intros t. unfold record_type. destruct (nshape (nd t)); auto. Qed.
Lemma solid_of : forall D u, complete D u -> (forall r, from u r -> nname (nd r) = Anonymous -> record_type tab r -> In (Struct r) D) -> solid D u.
Proof.
  intros D u H. induction H as [t H|t H I|t H _ IH]; intros S; [apply so_outside; auto|apply so_named; auto|]. destruct (record_dec t) as [R|R]; [apply so_struct; auto; apply S; auto; left; auto|].
  apply so_text; auto. intros u P. apply IH; auto. intros r F. apply S. eapply from_one; [|exact F]. split; [congruence|auto].
Qed.
Lemma needs_reach : forall i u, needs tab i u -> nname (nd (owner i)) <> Outside -> (forall t m, i = Head t m -> bound tab t m) -> reaches_one tab (owner i) u.
Proof. intros i u H O B. destruct H as [t u P|t u P|t m u P]; cbn in *; split; auto. right. exists m. split; auto. Qed.
Lemma from_trans : forall a b c, from a b -> from b c -> from a c.
Proof. intros a b c [->|H] [->|G]; [left; auto|right; auto|right; auto|right; eapply t_trans; eauto]. Qed.
(** Items belong to types of this module. *)
Definition sane (D : list item) : Prop := forall i, In i D -> nname (nd (owner i)) <> Outside /\ forall t m, i = Head t m -> bound tab t m.
Lemma define_sane : forall f t s s', DefineType f t s = Ok s' -> sane (out s) -> sane (out s').
Proof.
  induction f as [|f IH]; intros t s s' E SN; [discriminate|]. cbn [TdefModel.DefineType] in E. destruct (negb (nshown (nd t))); [injection E as <-; auto|]. apply bind_inv in E as (s1 & E1 & E2).
  assert (EA : forall l a b, each (DefineType f) l a = Ok b -> sane (out a) -> sane (out b)).
  { intros l a b H. apply (each_ind _ (DefineType f) (fun a b => sane (out a) -> sane (out b))) with (l := l); auto. intros u x y _ G. eapply IH. exact G. }
  assert (A : sane (out s1)).
  { destruct (match nname (nd t) with Anonymous => true | Local => Undefined s t | Outside => false end); [|injection E1 as <-; auto].
    set (s0 := if local tab t then if status_eqb (st s t) Processing then (if is_ptr tab t then s else set (mark s) t Predefined) else set s t Processing else s) in *.
    assert (A0 : sane (out s0)) by (unfold s0; destruct (local tab t), (status_eqb (st s t) Processing), (is_ptr tab t); auto).
    destruct (nshape (nd t)) as [|b fs ms|b|b|r ps].
    - injection E1 as <-. auto.
    - apply bind_inv in E1 as (s2 & E1 & E3). eapply EA; [exact E3|]. eapply EA; [exact E1|]. auto.
    - destruct (is_rec tab b); [injection E1 as <-; auto|]. eapply IH; [exact E1|auto].
    - eapply IH; [exact E1|]. destruct (local tab b && status_eqb (st s0 b) Processing); auto.
    - apply bind_inv in E1 as (s2 & E1 & E3). eapply EA; [exact E3|]. eapply EA; [exact E1|]. auto. }
  destruct (local tab t && Undefined s1 t) eqn:LU; [|injection E2 as <-; auto]. apply andb_true_iff in LU as [LT _]. assert (NO : nname (nd t) <> Outside) by (unfold local in LT; destruct (nname (nd t)); congruence).
  assert (B : sane (out (set (emit s1 (Def t)) t Defined))). { intros i H. apply in_app_iff in H as [H|[<-|[]]]; auto. split; [auto|discriminate]. }
  destruct (nshape (nd t)) as [|b fs ms|b|b|r ps] eqn:SH; try (injection E2 as <-; auto).
  revert E2 B. apply (each_ind _ _ (fun a b => sane (out a) -> sane (out b))); [auto|auto|]. intros m x y IM H SX. apply bind_inv in H as (x2 & H1 & H2). assert (S2 : sane (out x2)) by (eapply EA; eauto). destruct (mshown m); [|injection H2 as <-; auto].
  apply bind_inv in H2 as (x3 & H2 & H3). apply bind_inv in H3 as (x4 & H3 & H4). injection H4 as <-. assert (S4 : sane (out x4)) by (eapply EA; [exact H3|]; eapply EA; eauto).
  intros i H. apply in_app_iff in H as [H|[<-|[]]]; auto. split; [auto|]. intros t' m' Q. injection Q as <- <-. exists b, fs, ms. auto.
Qed.
(** ** Records without a name first, then the types of the scope. *)
Lemma anon_step : forall f r s s', nname (nd r) = Anonymous -> (if negb (local tab r) && nshown (nd r) then let* s := DefineType f r s in Ok (emit s (Struct r)) else Ok s) = Ok s' -> errs s' = 0%nat -> Inv s ->
  Inv s' /\ ext (from r) s s' /\ (nshown (nd r) = true -> In (Struct r) (out s')).
Proof.
  intros f r s s' A E Z I. unfold local in E. rewrite A in E. cbn [negb andb] in E. destruct (nshown (nd r)) eqn:SR.
  - apply bind_inv in E as (s1 & E1 & E2). injection E2 as <-. cbn in Z. destruct (define_ok f r s s1 E1 Z I SR) as (I1 & F1 & C1). inversion C1; try congruence; subst. split; [|split].
    + apply Inv_item; auto; [discriminate|]. intros u Q. inversion Q; subst. auto.
    + eapply ext_trans; [exact F1|]. exists [Struct r]. split; [reflexivity|]. intros i [<-|[]]. left. reflexivity.
    + intros _. apply in_app_iff. right. left. reflexivity.
  - injection E as <-. split; auto. split; [apply ext_refl|discriminate].
Qed.
Lemma anon_mono : forall f r s s', (if negb (local tab r) && nshown (nd r) then let* s := DefineType f r s in Ok (emit s (Struct r)) else Ok s) = Ok s' -> (errs s <= errs s')%nat.
Proof. intros f r s s' E. destruct (negb (local tab r) && nshown (nd r)); [|injection E as <-; auto]. apply bind_inv in E as (s1 & E1 & E2). injection E2 as <-. apply errs_mono in E1. auto. Qed.
(** Every definition, structure and head comes after all it needs, and no type is defined twice; in the end every type of the scope is known. *)
Theorem C88_order : forall f rs ts s, Gen tab f rs ts = Ok s -> errs s = 0%nat -> (forall r, In r rs -> nname (nd r) = Anonymous) ->
  ordered tab complete (out s) /\ once (out s) /\ (forall t, In t ts -> nshown (nd t) = true -> complete (out s) t) /\ (forall r, In r rs -> nshown (nd r) = true -> In (Struct r) (out s)).
Proof.
  intros f rs ts s E Z RA. unfold Gen in E. apply bind_inv in E as (s1 & E1 & E2). unfold DefAnonRecs in E1. unfold TypeDefs in E2.
  assert (M : (errs s1 <= errs s)%nat). { revert E2. apply (each_ind _ _ (fun a b => (errs a <= errs b)%nat)); [auto|intros; lia|intros; eapply errs_mono; eassumption]. }
  destruct (each_ok _ (fun r s => if negb (local tab r) && nshown (nd r) then let* s := DefineType f r s in Ok (emit s (Struct r)) else Ok s) (fun r D => nshown (nd r) = true -> In (Struct r) D) (fun _ => True) rs)
    with (s := mk (fun _ => Undef) 0 []) (s' := s1) as (I1 & F1 & C1); auto using Inv_init; [| | |lia|].
  { intros r a b _ H. eapply anon_mono. exact H. }
  { intros r D F H K. apply in_app_iff. auto. }
  { intros r a b IR H ZB IA. destruct (anon_step f r a b (RA r IR) H ZB IA) as (P & Q & W). split; auto. split; auto. eapply ext_weaken; [|exact Q]. auto. }
  destruct (each_ok _ (DefineType f) (fun t D => nshown (nd t) = true -> complete D t) (fun _ => True) ts) with (s := s1) (s' := s) as (I2 & F2 & C2); auto.
  { intros. eapply errs_mono; eassumption. }
  { intros. apply complete_mono. auto. }
  { intros t a b _ H ZB IA. destruct (nshown (nd t)) eqn:ST.
    - destruct (define_ok f t a b H ZB IA ST) as (P & Q & W). split; auto. split; auto. eapply ext_weaken; [|exact Q]. auto.
    - destruct f as [|f']; [discriminate|]. cbn [TdefModel.DefineType] in H. rewrite ST in H. injection H as <-. split; auto. split; [apply ext_refl|discriminate]. }
  destruct I2 as [D1 D2 D3 D4]. split; auto. split; auto. split; auto. intros r IR SR. destruct F2 as (F & -> & _). apply in_app_iff. left. auto.
Qed.
Lemma ordered_prefix : forall K D E, ordered tab K (D ++ E) -> ordered tab K D.
Proof. intros K D E H A i B -> u Q. apply (H A i (B ++ E)); auto. rewrite <- app_assoc. reflexivity. Qed.
Lemma app_split : forall A (X Y P Q : list A) i, X ++ Y = P ++ i :: Q -> (exists Q', X = P ++ i :: Q') \/ (exists P', P = X ++ P' /\ Y = P' ++ i :: Q).
Proof.
  intros A X. induction X as [|x X IH]; intros Y P Q i H; [right; exists P; auto|]. destruct P as [|p P]; cbn [app] in H; injection H as -> H; [left; exists X; reflexivity|].
  destruct (IH _ _ _ _ H) as [(Q' & ->)|(P' & -> & ->)]; [left; exists Q'; reflexivity|right; exists P'; auto].
Qed.
(** One step keeps the order with structures, if those the step can reach have been written. *)
Lemma solid_step : forall t s s', Inv s' -> ext (from t) s s' -> sane (out s') -> ordered tab solid (out s) ->
  (forall u, reaches tab t u -> nname (nd u) = Anonymous -> record_type tab u -> In (Struct u) (out s)) -> ordered tab solid (out s').
Proof.
  intros t s s' I (E & EQ & O) SN OS H A i B D u Q. rewrite EQ in D. pose proof D as D0. apply app_split in D as [(Q' & D)|(P' & -> & D)]; [eapply OS; eauto|].
  apply solid_of.
  - apply (i_ord _ I (out s ++ P') i B); auto. congruence.
  - intros r F AN RT. apply in_app_iff. left. apply H; auto. destruct (SN i) as [NO BD]; [rewrite EQ, D0; apply in_elt|]. pose proof (needs_reach i u Q NO BD) as R1. destruct (O i) as [OT|OT]; [rewrite D; apply in_elt| |].
    + rewrite OT in R1. destruct F as [->|F]; [apply t_step; auto|eapply t_trans; [apply t_step; exact R1|exact F]].
    + eapply t_trans; [exact OT|]. destruct F as [->|F]; [apply t_step; auto|eapply t_trans; [apply t_step; exact R1|exact F]].
Qed.
Lemma reach_shown : forall t u, reaches tab t u -> nname (nd u) <> Outside -> nshown (nd t) = true -> (forall t m, bound tab t m -> mshown m = true) -> nshown (nd u) = true.
Proof.
  intros t u R O S MS. revert O. induction R as [t u [NO [P|(m & BM & HT)]]|t v u R1 IH1 R2 IH2]; intros O.
  - apply (CL t S NO). auto.
  - apply (proj2 (CL t S NO) m u BM); auto. eapply MS. exact BM.
  - apply IH2; auto. apply IH1; auto. clear - R2. induction R2; [apply H|auto].
Qed.
(** Structures too come before they are needed, if the records without a name are declared in that order (records without a name inside others come first, by the grammar).
    Partial: not if a pointer declared before, or a type-bound procedure, leads to a record declared later ([C88_struct_refuted]). *)
Theorem C88_struct_partial : forall f rs ts s, Gen tab f rs ts = Ok s -> errs s = 0%nat -> (forall r, In r rs -> nname (nd r) = Anonymous) -> (forall t m, bound tab t m -> mshown m = true) ->
  (forall P r Q, rs = P ++ r :: Q -> nshown (nd r) = true -> forall u, reaches tab r u -> nname (nd u) = Anonymous -> record_type tab u -> In u P) ->
  (forall t u, In t ts -> reaches tab t u -> nname (nd u) = Anonymous -> record_type tab u -> In u rs) -> ordered tab solid (out s).
Proof.
  intros f rs ts s E Z RA MS OR TR. unfold Gen in E. apply bind_inv in E as (s1 & E1 & E2). unfold DefAnonRecs in E1. unfold TypeDefs in E2.
  assert (M : (errs s1 <= errs s)%nat). { revert E2. apply (each_ind _ _ (fun a b => (errs a <= errs b)%nat)); [auto|intros; lia|intros; eapply errs_mono; eassumption]. }
  assert (A : Inv s1 /\ sane (out s1) /\ ordered tab solid (out s1) /\ forall r, In r rs -> nshown (nd r) = true -> In (Struct r) (out s1)).
  { assert (G : forall l pre s0, rs = pre ++ l -> each (fun r s => if negb (local tab r) && nshown (nd r) then let* s := DefineType f r s in Ok (emit s (Struct r)) else Ok s) l s0 = Ok s1 ->
      Inv s0 -> sane (out s0) -> ordered tab solid (out s0) -> (forall r, In r pre -> nshown (nd r) = true -> In (Struct r) (out s0)) ->
      Inv s1 /\ sane (out s1) /\ ordered tab solid (out s1) /\ forall r, In r rs -> nshown (nd r) = true -> In (Struct r) (out s1)).
    { induction l as [|r l IH]; intros pre s0 EQ H I SN OS ST; cbn [each] in H.
      - injection H as <-. rewrite app_nil_r in EQ. subst. auto.
      - apply bind_inv in H as (s2 & H1 & H2). assert (M2 : (errs s2 <= errs s1)%nat). { revert H2. apply (each_ind _ _ (fun a b => (errs a <= errs b)%nat)); [auto|intros; lia|]. intros a x y _ HH. eapply anon_mono. exact HH. }
        assert (AR : nname (nd r) = Anonymous) by (apply RA; rewrite EQ; apply in_elt). destruct (anon_step f r s0 s2 AR H1 ltac:(lia) I) as (I2 & F2 & C2).
        assert (SN2 : sane (out s2)). { unfold local in H1. rewrite AR in H1. cbn [negb andb] in H1. destruct (nshown (nd r)); [|injection H1 as <-; auto]. apply bind_inv in H1 as (s3 & H1 & H3). injection H3 as <-. apply define_sane in H1; auto. intros i K. apply in_app_iff in K as [K|[<-|[]]]; auto. split; [cbn; congruence|discriminate]. }
        apply (IH (pre ++ [r]) s2); auto.
        + rewrite <- app_assoc. auto.
        + destruct (nshown (nd r)) eqn:SR.
          * apply (solid_step r s0 s2); auto. intros u RU AU RT. apply ST; [eapply OR; eauto|]. eapply reach_shown; eauto. congruence.
          * unfold local in H1. rewrite AR in H1. cbn [negb andb] in H1. injection H1 as <-. auto.
        + intros q K SQ. apply in_app_iff in K as [K|[<-|[]]]; auto. destruct F2 as (X & -> & _). apply in_app_iff. auto. }
    apply (G rs [] (mk (fun _ => Undef) 0 [])); auto using Inv_init; try (intros [] ? ? H; discriminate); intros ? []. }
  destruct A as (I1 & SN1 & OS1 & ST1).
  assert (G : forall l s0, (forall t, In t l -> In t ts) -> each (DefineType f) l s0 = Ok s -> Inv s0 -> sane (out s0) -> ordered tab solid (out s0) -> (forall r, In r rs -> nshown (nd r) = true -> In (Struct r) (out s0)) -> ordered tab solid (out s)).
  { induction l as [|t l IH]; intros s0 SUB H I SN OS ST; cbn [each] in H; [injection H as <-; auto|].
    apply bind_inv in H as (s2 & H1 & H2). assert (M2 : (errs s2 <= errs s)%nat). { revert H2. apply (each_ind _ _ (fun a b => (errs a <= errs b)%nat)); [auto|intros; lia|intros; eapply errs_mono; eassumption]. }
    destruct (nshown (nd t)) eqn:SH.
    - destruct (define_ok f t s0 s2 H1 ltac:(lia) I SH) as (I2 & F2 & _). pose proof (define_sane f t s0 s2 H1 SN) as SN2. apply (IH s2); auto; [intros; apply SUB; right; auto| |].
      + apply (solid_step t s0 s2); auto. intros u RU AU RT. apply ST; [apply (TR t u); auto; apply SUB; left; auto|]. eapply reach_shown; eauto. congruence.
      + intros q K SQ. destruct F2 as (X & -> & _). apply in_app_iff. auto.
    - destruct f as [|f']; [discriminate|]. cbn [TdefModel.DefineType] in H1. rewrite SH in H1. injection H1 as <-. apply (IH s0); auto. intros; apply SUB; right; auto. }
  apply (G ts s1); auto.
Qed.
(** ** Cycles are reported. *)
Lemma complete_acc : forall D, ordered tab complete D -> forall t, complete D t -> Acc (fun u t => contains tab t u) t.
Proof.
  intros D. remember (length D) as n eqn:L. revert D L. induction n as [n IHn] using lt_wf_ind. intros D L O t C. induction C as [t H|t H I|t H _ IH].
  - constructor. intros u [N _]. contradiction.
  - constructor. intros u [_ P]. apply in_split in I as (A & B & E). apply (IHn (length A)) with (D := A); auto.
    + rewrite L, E, app_length. cbn. lia.
    + apply (ordered_prefix _ A (Def t :: B)). rewrite <- E. auto.
    + apply (O A (Def t) B E). apply nd_def. auto.
  - constructor. intros u [_ P]. auto.
Qed.
Lemma trans_flip : forall A (R : A -> A -> Prop) x y, clos_trans A R x y -> clos_trans A (fun a b => R b a) y x.
Proof. intros A R x y H. induction H; [apply t_step; auto|eapply t_trans; eauto]. Qed.
Lemma acc_irrefl : forall A (R : A -> A -> Prop) x, Acc R x -> ~ R x x.
Proof. intros A R x H. induction H as [x _ IH]. intros C. apply (IH x C). auto. Qed.
Lemma acc_down : forall A (R : A -> A -> Prop) x y, Acc R x -> clos_trans A R y x -> Acc R y.
Proof. intros A R x y H C. revert H. induction C; auto. intros H'. apply (Acc_inv H'). auto. Qed.
(** If no error is reported, nothing the types of the scope consist of, down to the names used in their text, is part of itself: cycles are reported. *)
Theorem C88_cycle : forall f rs ts s, Gen tab f rs ts = Ok s -> errs s = 0%nat -> (forall r, In r rs -> nname (nd r) = Anonymous) ->
  forall t u, In t ts -> nshown (nd t) = true -> u = t \/ clos_trans tid (contains tab) t u -> ~ clos_trans tid (contains tab) u u.
Proof.
  intros f rs ts s E Z RA t u IT ST R C. destruct (C88_order f rs ts s E Z RA) as (O & _ & CO & _). pose proof (complete_acc _ O t (CO t IT ST)) as AC.
  assert (AU : Acc (fun u t => contains tab t u) u) by (destruct R as [->|R]; auto; eapply acc_down; [exact AC|]; apply trans_flip; auto).
  apply Acc_clos_trans in AU. apply (acc_irrefl _ _ _ AU). apply trans_flip. auto.
Qed.
End Table.
(** ** It ends. *)
Section Ends.
Variable tab : list node.
Notation nd := (nd tab).
Notation part := (part tab).
Notation DefineType := (DefineType tab).
Definition weight (v : status) : nat := match v with Undef => 2 | Processing => 1 | _ => 0 end.
Definition credits (s : state) : nat := list_sum (map (fun t => weight (st s t)) (seq 0 (length tab))).
Lemma sum_set : forall (g h : tid -> nat) t n m, (forall u, u <> t -> g u = h u) -> (m <= t < m + n)%nat -> (list_sum (map g (seq m n)) + h t = list_sum (map h (seq m n)) + g t)%nat.
Proof.
  intros g h t n. induction n as [|n IH]; intros m E L; [lia|]. cbn [seq map list_sum fold_right]. destruct (Nat.eq_dec m t) as [->|N].
  - assert (Q : map g (seq (S t) n) = map h (seq (S t) n)) by (apply map_ext_in; intros u U; apply in_seq in U; apply E; lia). unfold list_sum in *. cbn. rewrite Q. lia.
  - specialize (IH (S m) E ltac:(lia)). unfold list_sum in *. cbn. rewrite (E m N). lia.
Qed.
Lemma local_in : forall t, local tab t = true -> (t < length tab)%nat.
Proof. intros t H. unfold local, TdefModel.nd in H. destruct (le_lt_dec (length tab) t) as [L|L]; auto. rewrite nth_overflow in H by auto. discriminate. Qed.
Lemma credits_set : forall s t v, local tab t = true -> (credits (set s t v) + weight (st s t) = credits s + weight v)%nat.
Proof.
  intros s t v H. apply local_in in H. unfold credits. pose proof (sum_set (fun u => weight (st (set s t v) u)) (fun u => weight (st s u)) t (length tab) 0) as Q. cbn in Q. rewrite Nat.eqb_refl in Q. apply Q; [|lia].
  intros u N. apply Nat.eqb_neq in N. rewrite N. auto.
Qed.
Lemma each_total : forall A (g : A -> state -> res state) (m : state -> nat) c l, (forall a s, In a l -> (m s <= c)%nat -> exists s', g a s = Ok s' /\ (m s' <= m s)%nat) ->
  forall s, (m s <= c)%nat -> exists s', each g l s = Ok s' /\ (m s' <= m s)%nat.
Proof.
  intros A g m c l. induction l as [|a l IH]; intros H s L; cbn [each]; [exists s; auto|]. destruct (H a s) as (s1 & E1 & L1); auto; [left; auto|]. destruct (IH (fun a s i => H a s (or_intror i)) s1) as (s2 & E2 & L2); [lia|].
  exists s2. rewrite E1. cbn. split; auto. lia.
Qed.
Definition looseb (t : tid) : bool := match nname (nd t) with Anonymous => true | _ => is_ptr tab t end.
Lemma loose_iff : forall t, loose tab t <-> looseb t = true.
Proof.
  intros t. unfold loose, looseb, is_ptr. split.
  - intros [->|(b & ->)]; [auto|]. destruct (nname (nd t)); auto.
  - destruct (nname (nd t)); auto; (destruct (nshape (nd t)) eqn:S; try discriminate; right; eexists; reflexivity).
Qed.
Variable rank : tid -> nat.
Hypothesis RK : forall t u, loose tab t -> loose tab u -> part t u -> (rank u < rank t)%nat.
Variable top : nat.
Hypothesis RT : forall t, loose tab t -> (rank t <= top)%nat.
Definition need (c : nat) (t : tid) : nat := c * (top + 3) + (if looseb t then rank t + 2 else 1).
Lemma need_less : forall c c' t, (c' < c)%nat -> (need c' t < need c t)%nat /\ (need c' t < c * (top + 3))%nat.
Proof.
  intros c c' t L. unfold need. pose proof (RT t) as Q. rewrite loose_iff in Q. assert (E : (c' * (top + 3) + (top + 3) <= c * (top + 3))%nat) by nia. destruct (looseb t); [specialize (Q eq_refl)|]; lia.
Qed.
Lemma define_ends : forall f t s, (need (credits s) t <= f)%nat -> exists s', DefineType f t s = Ok s' /\ (credits s' <= credits s)%nat.
Proof.
  induction f as [|f IH]; intros t s N; [unfold need in N; destruct (looseb t); lia|]. cbn [TdefModel.DefineType]. destruct (negb (nshown (nd t))); [exists s; auto|].
  assert (EA : forall l c, (forall u, In u l -> (need c u <= f)%nat) -> forall a, (credits a <= c)%nat -> exists b, each (DefineType f) l a = Ok b /\ (credits b <= credits a)%nat).
  { intros l c H a LA. apply (each_total _ _ credits c); auto. intros u x U LX. apply IH. specialize (H u U). destruct (Nat.eq_dec (credits x) c) as [->|NE]; auto. pose proof (need_less c (credits x) u ltac:(lia)). lia. }
  set (s0 := if local tab t then if status_eqb (st s t) Processing then (if is_ptr tab t then s else set (mark s) t Predefined) else set s t Processing else s).
  assert (B1 : exists s1, (if match nname (nd t) with Anonymous => true | Local => Undefined s t | Outside => false end then
      match nshape (nd t) with
      | SBasic => Ok s0
      | SRec b fs _ => let* s := each (DefineType f) (opt b) s0 in each (DefineType f) fs s
      | SPtr b => if is_rec tab b then Ok s0 else DefineType f b s0
      | SArr b => DefineType f b (if local tab b && status_eqb (st s0 b) Processing then set (mark s0) b Predefined else s0)
      | SProc r ps => let* s := each (DefineType f) (opt r) s0 in each (DefineType f) ps s
      end else Ok s) = Ok s1 /\ (credits s1 <= credits s)%nat).
  { destruct (match nname (nd t) with Anonymous => true | Local => Undefined s t | Outside => false end) eqn:G; [|exists s; auto].
    assert (K : (credits s0 <= credits s)%nat /\ forall u, part t u -> (need (credits s0) u <= f)%nat).
    { assert (D : (credits s0 < credits s)%nat \/ s0 = s /\ looseb t = true).
      { unfold s0, looseb. unfold local. destruct (nname (nd t)) eqn:NT; [right; auto| |discriminate]. assert (LT : local tab t = true) by (unfold local; rewrite NT; auto).
        destruct (status_eqb (st s t) Processing) eqn:SP.
        - destruct (is_ptr tab t); [right; auto|]. left. pose proof (credits_set (mark s) t Predefined LT) as Q. change (credits (mark s)) with (credits s) in Q. change (st (mark s) t) with (st s t) in Q. destruct (st s t); try discriminate. cbn in Q. lia.
        - left. pose proof (credits_set s t Processing LT) as Q. unfold Undefined in G. destruct (st s t); try discriminate. cbn in Q. lia. }
      destruct D as [D|[-> LT]]; (split; [lia|]); intros u P.
      - pose proof (need_less _ _ u D) as [_ Q]. unfold need in N at 1. destruct (looseb t); lia.
      - unfold need in *. rewrite LT in N. destruct (looseb u) eqn:LU; [|lia]. apply loose_iff in LT. apply loose_iff in LU. pose proof (RK t u LT LU P). lia. }
    destruct K as [K0 K]. destruct (nshape (nd t)) as [|b fs ms|b|b|r ps] eqn:SH.
    - exists s0. auto.
    - destruct (EA (opt b) (credits s0)) with (a := s0) as (x & E1 & L1); auto. { intros u U. apply K. destruct b as [b|]; [destruct U as [<-|[]]|destruct U]. eapply pt_base; eassumption. }
      destruct (EA fs (credits s0)) with (a := x) as (y & E2 & L2); auto. { intros u U. apply K. eapply pt_field; eassumption. }
      exists y. rewrite E1. cbn. split; auto. lia.
    - destruct (is_rec tab b) eqn:RB; [exists s0; auto|]. destruct (IH b s0) as (x & E1 & L1); [|exists x; split; auto; lia].
      apply K. eapply pt_ptr; [eassumption|]. unfold is_rec, record_type in *. destruct (nshape (nd b)); auto; discriminate.
    - assert (PB : part t b) by (eapply pt_elem; eassumption). specialize (K b PB). destruct (local tab b && status_eqb (st s0 b) Processing) eqn:C.
      + apply andb_true_iff in C as [LB PB']. pose proof (credits_set (mark s0) b Predefined LB) as Q. change (credits (mark s0)) with (credits s0) in Q. change (st (mark s0) b) with (st s0 b) in Q. destruct (st s0 b); try discriminate. cbn in Q.
        destruct (IH b (set (mark s0) b Predefined)) as (x & E1 & L1); [|exists x; split; auto; lia]. pose proof (need_less (credits s0) (credits (set (mark s0) b Predefined)) b ltac:(lia)). lia.
      + destruct (IH b s0 K) as (x & E1 & L1). exists x. split; auto. lia.
    - destruct (EA (opt r) (credits s0)) with (a := s0) as (x & E1 & L1); auto. { intros u U. apply K. destruct r as [r|]; [destruct U as [<-|[]]|destruct U]. eapply pt_result; eassumption. }
      destruct (EA ps (credits s0)) with (a := x) as (y & E2 & L2); auto. { intros u U. apply K. eapply pt_param; eassumption. }
      exists y. rewrite E1. cbn. split; auto. lia. }
  destruct B1 as (s1 & E1 & L1). rewrite E1. cbn [bind]. destruct (local tab t && Undefined s1 t) eqn:LU; [|exists s1; auto].
  apply andb_true_iff in LU as [LT U]. pose proof (credits_set (emit s1 (Def t)) t Defined LT) as Q. change (credits (emit s1 (Def t))) with (credits s1) in Q. change (st (emit s1 (Def t)) t) with (st s1 t) in Q.
  assert (W : (1 <= weight (st s1 t))%nat) by (unfold Undefined in U; destruct (st s1 t); try discriminate; cbn; lia). cbn [weight] in Q. set (s2 := set (emit s1 (Def t)) t Defined) in *.
  destruct (nshape (nd t)) as [|b fs ms|b|b|r ps]; try (exists s2; split; [reflexivity|lia]).
  assert (NE : forall u, (need (credits s2) u <= f)%nat). { intros u. pose proof (need_less (credits s) (credits s2) u ltac:(lia)) as [_ G]. unfold need in N at 1. destruct (looseb t); lia. }
  destruct (each_total _ (fun m s => let* s0 := each (DefineType f) (opt (mres m)) s in if mshown m then let* s1 := each (DefineType f) (opt (mres m)) s0 in let* s2 := each (DefineType f) (mpar m) s1 in Ok (emit s2 (Head t m)) else Ok s0)
    credits (credits s2) ms) with (s := s2) as (s3 & E3 & L3); auto.
  - intros m x _ LX. destruct (EA (opt (mres m)) (credits s2) (fun u _ => NE u) x LX) as (x1 & F1 & M1). rewrite F1. cbn [bind]. destruct (mshown m); [|exists x1; auto].
    destruct (EA (opt (mres m)) (credits s2) (fun u _ => NE u) x1 ltac:(lia)) as (x2 & F2 & M2). rewrite F2. cbn [bind]. destruct (EA (mpar m) (credits s2) (fun u _ => NE u) x2 ltac:(lia)) as (x3 & F3 & M3). rewrite F3. cbn [bind].
    exists (emit x3 (Head t m)). split; auto. change (credits (emit x3 (Head t m))) with (credits x3). lia.
  - exists s3. split; auto. lia.
Qed.
End Ends.
(** Generation ends if no cycle consists of types without a name and pointers only.  Partial: it does not end for some of those that do ([C88_ends_refuted]). *)
Theorem C88_ends_partial : forall tab, (exists rank : tid -> nat, forall t u, loose tab t -> loose tab u -> part tab t u -> (rank u < rank t)%nat) -> forall rs ts, exists f s, Gen tab f rs ts = Ok s.
Proof.
  intros tab (rank & RK) rs ts. set (top := list_max (map rank (seq 0 (length tab)))).
  assert (RT : forall t, loose tab t -> (rank t <= top)%nat).
  { intros t L. assert (B : (t < length tab)%nat). { destruct (le_lt_dec (length tab) t) as [G|G]; auto. unfold loose, nd in L. rewrite nth_overflow in L by auto. cbn in L. destruct L as [L|(b & L)]; discriminate. }
    assert (M : Forall (fun k => (k <= top)%nat) (map rank (seq 0 (length tab)))) by (apply list_max_le; unfold top; auto). rewrite Forall_forall in M. apply M. apply in_map. apply in_seq. lia. }
  set (i := mk (fun _ => Undef) 0 []). set (f := (credits tab i * (top + 3) + top + 2)%nat).
  assert (D : forall t s, (credits tab s <= credits tab i)%nat -> exists s', DefineType tab f t s = Ok s' /\ (credits tab s' <= credits tab s)%nat).
  { intros t s L. apply (define_ends tab rank RK top RT). assert (P : (credits tab s * (top + 3) <= credits tab i * (top + 3))%nat) by (apply Nat.mul_le_mono_r; auto). unfold need, f. pose proof (RT t) as Q. rewrite loose_iff in Q. destruct (looseb tab t); [specialize (Q eq_refl)|]; lia. }
  destruct (each_total _ (fun r s => if negb (local tab r) && nshown (nd tab r) then let* s := DefineType tab f r s in Ok (emit s (Struct r)) else Ok s) (credits tab) (credits tab i) rs) with (s := i) as (s1 & E1 & L1); auto.
  { intros r s _ L. destruct (negb (local tab r) && nshown (nd tab r)); [|exists s; auto]. destruct (D r s L) as (s' & E & L'). rewrite E. cbn [bind]. exists (emit s' (Struct r)). split; auto. }
  destruct (each_total _ (DefineType tab f) (credits tab) (credits tab i) ts) with (s := s1) as (s2 & E2 & L2); auto.
  exists f, s2. unfold Gen, DefAnonRecs, TypeDefs. fold i. rewrite E1. cbn [bind]. auto.
Qed.

(** ** Types without cycles are accepted. *)
Section Accepts.
Variable tab : list node.
Notation nd := (nd tab).
Notation part := (part tab).
Notation DefineType := (DefineType tab).
Variable rank : tid -> nat.
Hypothesis RP : forall t u, contains tab t u -> (rank u < rank t)%nat.
Hypothesis RM : forall t m u, bound tab t m -> head_type m u -> u = t \/ (rank u < rank t)%nat.
(** Nothing is reported, and what is being processed stays so. *)
Definition calm (s s' : state) : Prop := errs s' = errs s /\ (forall p, st s' p = Processing <-> st s p = Processing) /\ (forall p, st s p = Defined -> st s' p = Defined).
Lemma calm_refl : forall s, calm s s. Proof. intros s. split; [auto|]. split; [intros; reflexivity|auto]. Qed.
Lemma calm_trans : forall a b c, calm a b -> calm b c -> calm a c.
Proof. intros a b c (A & B & C) (D & E & F). split; [congruence|]. split; [intros p; rewrite E; apply B|auto]. Qed.
Lemma calm_emit : forall s i, calm s (emit s i). Proof. intros s i. split; [auto|]. split; [intros; reflexivity|auto]. Qed.
Definition above (t : tid) (s : state) : Prop := forall p, st s p = Processing -> (rank t < rank p)%nat.
Lemma above_calm : forall t s s', calm s s' -> above t s -> above t s'. Proof. intros t s s' (_ & B & _) H p P. apply H. apply B. auto. Qed.
Lemma each_calm : forall A (g : A -> state -> res state) (H : state -> Prop) l, (forall s s', calm s s' -> H s -> H s') -> (forall a s, In a l -> H s -> exists s', g a s = Ok s' /\ calm s s') -> forall s, H s -> exists s', each g l s = Ok s' /\ calm s s'.
Proof.
  intros A g H l K. induction l as [|a l IH]; intros G s HS; cbn [each]; [exists s; split; auto; apply calm_refl|]. destruct (G a s) as (s1 & E1 & C1); auto; [left; auto|].
  destruct (IH (fun a s i => G a s (or_intror i)) s1) as (s2 & E2 & C2); [eapply K; eauto|]. exists s2. rewrite E1. cbn. split; auto. eapply calm_trans; eauto.
Qed.
Lemma define_calm : forall f t s, (rank t + 1 < f)%nat -> above t s -> exists s', DefineType f t s = Ok s' /\ calm s s'.
Proof.
  induction f as [|f IH]; intros t s F AB; [lia|]. cbn [TdefModel.DefineType]. destruct (negb (nshown (nd t))); [exists s; split; auto; apply calm_refl|].
  assert (NP : st s t <> Processing) by (intros H; specialize (AB t H); lia).
  assert (SP : status_eqb (st s t) Processing = false) by (destruct (st s t); auto; congruence). rewrite SP.
  assert (EA : forall l, (forall u, In u l -> (rank u < rank t)%nat) -> forall a, (forall p, st a p = Processing -> (rank t <= rank p)%nat) -> exists b, each (DefineType f) l a = Ok b /\ calm a b).
  { intros l H. apply each_calm; [intros a b (_ & B & _) G p P; apply G; apply B; auto|]. intros u a U G. specialize (H u U). apply IH; [lia|]. intros p P. specialize (G p P). lia. }
  assert (PA : nname (nd t) <> Outside -> forall a, (forall p, st a p = Processing -> (rank t <= rank p)%nat) -> exists b, match nshape (nd t) with
      | SBasic => Ok a
      | SRec b fs _ => let* s := each (DefineType f) (opt b) a in each (DefineType f) fs s
      | SPtr b => if is_rec tab b then Ok a else DefineType f b a
      | SArr b => DefineType f b (if local tab b && status_eqb (st a b) Processing then set (mark a) b Predefined else a)
      | SProc r ps => let* s := each (DefineType f) (opt r) a in each (DefineType f) ps s
      end = Ok b /\ calm a b).
  { intros O a WK. assert (PT : forall u, part t u -> (rank u < rank t)%nat) by (intros u P; apply RP; split; auto).
    assert (ON : forall u, (rank u < rank t)%nat -> exists b, DefineType f u a = Ok b /\ calm a b) by (intros u U; apply IH; [lia|]; intros p P; specialize (WK p P); lia).
    assert (TW : forall l k, (forall u, In u l -> part t u) -> (forall u, In u k -> part t u) -> exists b, (let* s := each (DefineType f) l a in each (DefineType f) k s) = Ok b /\ calm a b).
    { intros l k L K. destruct (EA l (fun u U => PT u (L u U)) a WK) as (x & E1 & C1). destruct (EA k (fun u U => PT u (K u U)) x) as (y & E2 & C2); [intros p P; apply WK; apply C1; auto|].
      exists y. rewrite E1. cbn [bind]. split; auto. eapply calm_trans; eauto. }
    destruct (nshape (nd t)) as [|b fs ms|b|b|r ps] eqn:SH.
    - exists a. split; auto. apply calm_refl.
    - apply TW; intros u U; [destruct b as [b|]; [destruct U as [<-|[]]|destruct U]; eapply pt_base; eassumption|eapply pt_field; eassumption].
    - destruct (is_rec tab b) eqn:RB; [exists a; split; auto; apply calm_refl|]. apply ON. apply PT. eapply pt_ptr; [eassumption|]. unfold is_rec, record_type in *. destruct (nshape (nd b)); auto; discriminate.
    - assert (LB : (rank b < rank t)%nat) by (apply PT; eapply pt_elem; eassumption). assert (NB : status_eqb (st a b) Processing = false).
      { destruct (st a b) eqn:SB; auto. specialize (WK b SB). lia. }
      rewrite NB, andb_false_r. apply ON. auto.
    - apply TW; intros u U; [destruct r as [r|]; [destruct U as [<-|[]]|destruct U]; eapply pt_result; eassumption|eapply pt_param; eassumption]. }
  assert (WK : forall p, st s p = Processing -> (rank t <= rank p)%nat) by (intros p P; specialize (AB p P); lia).
  destruct (nname (nd t)) eqn:NT.
  - assert (LT : local tab t = false) by (unfold local; rewrite NT; auto). rewrite LT. cbn [andb]. destruct (PA ltac:(discriminate) s WK) as (b & E & C). rewrite E. cbn [bind]. exists b. auto.
  - assert (LT : local tab t = true) by (unfold local; rewrite NT; auto). rewrite LT. cbn [andb]. destruct (Undefined s t) eqn:U.
    + destruct (PA ltac:(discriminate) (set s t Processing)) as (s1 & E1 & C1). { intros p. cbn. destruct (Nat.eqb_spec p t) as [->|]; auto. }
      rewrite E1. cbn [bind]. assert (P1 : st s1 t = Processing) by (apply C1; cbn; rewrite Nat.eqb_refl; auto). assert (U1 : Undefined s1 t = true) by (unfold Undefined; rewrite P1; auto). rewrite U1.
      set (s2 := set (emit s1 (Def t)) t Defined). assert (C2 : calm s s2).
      { destruct C1 as (A1 & B1 & D1). split; [exact A1|]. split.
        - intros p. specialize (B1 p). cbn in *. destruct (Nat.eqb_spec p t) as [PE|]; [subst p; split; intros; congruence|]. auto.
        - intros p. specialize (D1 p). cbn in *. destruct (Nat.eqb_spec p t) as [PE|]; auto. }
      assert (T2 : st s2 t = Defined) by (cbn; rewrite Nat.eqb_refl; auto).
      destruct (nshape (nd t)) as [|b fs ms|b|b|r ps] eqn:SH; try (exists s2; split; [reflexivity|auto]; fail).
      destruct (each_calm _ (fun m s => let* s0 := each (DefineType f) (opt (mres m)) s in if mshown m then let* s1 := each (DefineType f) (opt (mres m)) s0 in let* s2 := each (DefineType f) (mpar m) s1 in Ok (emit s2 (Head t m)) else Ok s0)
        (fun x => st x t = Defined /\ above t x) ms) with (s := s2) as (s3 & E3 & C3).
      * intros x y CX [A B]. split; [apply CX; auto|eapply above_calm; eauto].
      * intros m x IM HX. assert (BM : bound tab t m) by (exists b, fs, ms; auto).
        assert (OK : forall l, (forall u, In u l -> head_type m u) -> forall x, st x t = Defined /\ above t x -> exists y, each (DefineType f) l x = Ok y /\ calm x y).
        { intros l L. apply each_calm; [intros x' y' CX [A B]; split; [apply CX; auto|eapply above_calm; eauto]|]. intros u y UI [DY AY]. destruct (RM t m u BM (L u UI)) as [->|LU].
          - destruct f as [|f']; [lia|]. cbn [TdefModel.DefineType]. exists y. split; [|apply calm_refl]. destruct (negb (nshown (nd t))); auto. rewrite NT, LT. unfold Undefined. rewrite DY. cbn [bind]. rewrite DY. reflexivity.
          - apply IH; [lia|]. intros p P. specialize (AY p P). lia. }
        assert (HR : forall u, In u (opt (mres m)) -> head_type m u) by (intros u U'; destruct (mres m) as [r|] eqn:MR; [destruct U' as [<-|[]]; apply ht_res; auto|destruct U']).
        assert (HP : forall u, In u (mpar m) -> head_type m u) by (intros u U'; apply ht_par; auto).
        assert (ST : forall x y, calm x y -> st x t = Defined /\ above t x -> st y t = Defined /\ above t y) by (intros x' y' CX [A B]; split; [apply CX; auto|eapply above_calm; eauto]).
        destruct (OK _ HR x HX) as (x1 & F1 & K1). rewrite F1. cbn [bind]. destruct (mshown m); [|exists x1; auto].
        destruct (OK _ HR x1 (ST _ _ K1 HX)) as (x2 & F2 & K2). rewrite F2. cbn [bind]. destruct (OK _ HP x2 (ST _ _ K2 (ST _ _ K1 HX))) as (x3 & F3 & K3). rewrite F3. cbn [bind].
        exists (emit x3 (Head t m)). split; auto. eapply calm_trans; [exact K1|]. eapply calm_trans; [exact K2|]. eapply calm_trans; [exact K3|]. apply calm_emit.
      * split; [exact T2|]. eapply above_calm; eauto.
      * exists s3. split; [exact E3|]. eapply calm_trans; eauto.
    + cbn [bind]. rewrite U. exists s. split; auto. apply calm_refl.
  - unfold local. rewrite NT. cbn. exists s. split; auto. apply calm_refl.
Qed.
End Accepts.
(** Types of which none is part of itself are accepted, also with what their type-bound procedures use.  Partial: if a type-bound procedure of a record uses a type that contains the record, it depends on
    the order of the types ([C88_accepts_refuted]). *)
Theorem C88_accepts_partial : forall tab, (exists rank : tid -> nat, (forall t u, contains tab t u -> (rank u < rank t)%nat) /\ (forall t m u, bound tab t m -> head_type m u -> u = t \/ (rank u < rank t)%nat)) ->
  forall rs ts, exists f s, Gen tab f rs ts = Ok s /\ errs s = 0%nat.
Proof.
  intros tab (rank & RP & RM) rs ts. set (f := (list_max (map rank (rs ++ ts)) + 2)%nat).
  assert (FT : forall t, In t (rs ++ ts) -> (rank t + 1 < f)%nat).
  { intros t I. assert (M : Forall (fun k => (k <= list_max (map rank (rs ++ ts)))%nat) (map rank (rs ++ ts))) by (apply list_max_le; auto). rewrite Forall_forall in M. specialize (M (rank t) (in_map rank _ _ I)). unfold f. lia. }
  set (quiet := fun s : state => forall p, st s p <> Processing). set (i := mk (fun _ => Undef) 0 []).
  assert (QC : forall s s', calm s s' -> quiet s -> quiet s') by (intros s s' (_ & B & _) Q p P; apply B in P; apply (Q p); auto).
  assert (D : forall t s, In t (rs ++ ts) -> quiet s -> exists s', DefineType tab f t s = Ok s' /\ calm s s') by (intros t s I Q; apply (define_calm tab rank RP RM); auto; intros p P; exfalso; apply (Q p); auto).
  destruct (each_calm _ (fun r s => if negb (local tab r) && nshown (nd tab r) then let* s := DefineType tab f r s in Ok (emit s (Struct r)) else Ok s) quiet rs QC) with (s := i) as (s1 & E1 & C1).
  { intros r s I Q. destruct (negb (local tab r) && nshown (nd tab r)); [|exists s; split; auto; apply calm_refl]. destruct (D r s (in_or_app _ _ _ (or_introl I)) Q) as (s' & E & C). rewrite E. cbn [bind]. exists (emit s' (Struct r)). split; auto. }
  { intros p. discriminate. }
  assert (Q1 : quiet s1) by (eapply QC; [exact C1|]; intros p; discriminate).
  destruct (each_calm _ (DefineType tab f) quiet ts QC (fun t s I Q => D t s (in_or_app _ _ _ (or_intror I)) Q) s1 Q1) as (s2 & E2 & C2).
  exists f, s2. unfold Gen, DefAnonRecs, TypeDefs. fold i. rewrite E1. cbn [bind]. split; auto. destruct C1 as [A _]. destruct C2 as [B _]. rewrite B, A. reflexivity.
Qed.
(** ** What fails. *)
(** [TYPE P = POINTER TO ARRAY OF RECORD p: P END] is legal, but the compiler does not end. *)
Definition tab_loop : list node := [mkn Local (SPtr 1%nat) true; mkn Anonymous (SArr 2%nat) true; mkn Anonymous (SRec None [0%nat] []) true].
Theorem C88_ends_refuted : ~ cyclic (embeds tab_loop) /\ closed tab_loop /\ forall f, Gen tab_loop f [2%nat] [0%nat] = Fuel.
Proof.
  split; [|split].
  - assert (E : forall t u, embeds tab_loop t u -> (t = 1 /\ u = 2 \/ t = 2 /\ u = 0)%nat).
    { intros t u H. destruct H as [t b fs ms H|t b fs ms u H I|t b H]; destruct t as [|[|[|[|t]]]]; cbn in H; try discriminate; [injection H as <- <- <-; destruct I as [<-|[]]; auto|injection H as <-; auto]. }
    assert (C : forall t u, clos_trans tid (embeds tab_loop) t u -> (t = 1 /\ (u = 2 \/ u = 0) \/ t = 2 /\ u = 0)%nat). { intros t u H. induction H as [t u H|t v u _ IH1 _ IH2]; [apply E in H; lia|lia]. }
    intros (t & H). apply C in H. lia.
  - intros t ST O. split.
    + intros u P. destruct u as [|[|[|[|u]]]]; reflexivity.
    + intros m u _ _ _. destruct u as [|[|[|[|u]]]]; reflexivity.
  - assert (L : forall f s, st s 0%nat = Processing -> DefineType tab_loop f 0%nat s = Fuel /\ DefineType tab_loop f 1%nat s = Fuel /\ DefineType tab_loop f 2%nat s = Fuel).
    { induction f as [|f IH]; intros s H; [auto|]. destruct (IH s H) as (A & B & C). cbn [DefineType nd nth tab_loop nshown negb nname nshape local is_ptr is_rec andb]. unfold Undefined. rewrite H. cbn [status_eqb]. cbn [each opt]. split; [|split].
      - change (nd tab_loop 0%nat) with (mkn Local (SPtr 1%nat) true). cbn. rewrite B. reflexivity.
      - cbn. rewrite C. reflexivity.
      - cbn. rewrite A. reflexivity. }
    intros f. unfold Gen, DefAnonRecs. cbn [each]. change (negb (local tab_loop 2%nat) && nshown (nd tab_loop 2%nat)) with true. cbv iota. destruct f as [|f]; [reflexivity|].
    set (i := mk (fun _ => Undef) 0 []). assert (Q : DefineType tab_loop (S f) 2%nat i = Fuel); [|rewrite Q; reflexivity].
    cbn. destruct f as [|f]; [reflexivity|]. cbn. destruct (L f (set i 0%nat Processing)) as (_ & B & _); [reflexivity|]. fold i. rewrite B. reflexivity.
Qed.
(** With [A = RECORD r: B END; B = RECORD END; PROCEDURE (VAR b: B) M (VAR x: A)] it depends on the order of the types whether an error is reported. *)
Definition tab_bound : list node := [mkn Local (SRec None [1%nat] []) true; mkn Local (SRec None [] [mkm None [1%nat; 0%nat] true]) true].
Theorem C88_accepts_refuted : ~ cyclic (contains tab_bound) /\ (exists s, Gen tab_bound 10 [] [0%nat; 1%nat] = Ok s /\ errs s = 1%nat) /\ (exists s, Gen tab_bound 10 [] [1%nat; 0%nat] = Ok s /\ errs s = 0%nat).
Proof.
  split; [|split].
  - assert (E : forall t u, contains tab_bound t u -> (t = 0 /\ u = 1)%nat).
    { intros t u [_ H]. destruct H as [t b fs ms H|t b fs ms u H I|t b H _|t b H|t r ps H|t r ps u H I]; destruct t as [|[|[|t]]]; cbn in H; try discriminate; injection H as <- <- <-; cbn in I; [destruct I as [<-|[]]; auto|destruct I]. }
    assert (C : forall t u, clos_trans tid (contains tab_bound) t u -> (t = 0 /\ u = 1)%nat). { intros t u H. induction H as [t u H|t v u _ IH1 _ IH2]; [apply E; auto|lia]. }
    intros (t & H). apply C in H. lia.
  - destruct (Gen tab_bound 10 [] [0%nat; 1%nat]) eqn:E; vm_compute in E; try discriminate. injection E as <-. eexists. split; reflexivity.
  - destruct (Gen tab_bound 10 [] [1%nat; 0%nat]) eqn:E; vm_compute in E; try discriminate. injection E as <-. eexists. split; reflexivity.
Qed.
(** [TYPE P = POINTER TO A; T = POINTER TO RECORD p: P END; A = ARRAY 3 OF RECORD z: INTEGER END]: A is defined before the structure of its elements. *)
Definition tab_struct : list node := [mkn Local (SPtr 3%nat) true; mkn Local (SPtr 2%nat) true; mkn Anonymous (SRec None [0%nat] []) true; mkn Local (SArr 4%nat) true; mkn Anonymous (SRec None [] []) true].
Theorem C88_struct_refuted : exists s, Gen tab_struct 20 [2%nat; 4%nat] [0%nat; 1%nat; 3%nat] = Ok s /\ errs s = 0%nat /\ out s = [Def 3%nat; Def 0%nat; Struct 2%nat; Struct 4%nat; Def 1%nat] /\ ~ ordered tab_struct (solid tab_struct) (out s).
Proof.
  destruct (Gen tab_struct 20 [2%nat; 4%nat] [0%nat; 1%nat; 3%nat]) as [s| | |] eqn:E; vm_compute in E; try discriminate. injection E as <-. eexists. split; [reflexivity|]. split; [reflexivity|]. split; [reflexivity|]. cbn [out].
  intros O. assert (S : solid tab_struct [] 4%nat). { apply (O [] (Def 3%nat) [Def 0%nat; Struct 2%nat; Struct 4%nat; Def 1%nat] eq_refl). apply nd_def. eapply pt_elem. reflexivity. }
  inversion S as [t H|t H I|t H R I|t H R _]; subst; try discriminate; [destruct I|]. apply R. exact I.
Qed.
(** [R = RECORD (B) p: P; a: ARRAY 4 OF PROCEDURE (x: P): Q END; P = POINTER TO R; Q = POINTER TO ARRAY OF P; PROCEDURE (VAR r: R) M (q: Q): P]. *)
Definition tab_met : list node := [mkn Local (SRec (Some 6%nat) [1%nat; 3%nat] [mkm (Some 1%nat) [0%nat; 2%nat] true]) true; mkn Local (SPtr 0%nat) true; mkn Local (SPtr 5%nat) true;
  mkn Anonymous (SArr 4%nat) true; mkn Anonymous (SProc (Some 2%nat) [1%nat]) true; mkn Anonymous (SArr 1%nat) true; mkn Outside (SRec None [] []) true].
Example C88_met : closed tab_met /\ (exists s, Gen tab_met 30 [] [0%nat; 1%nat; 2%nat] = Ok s /\ errs s = 0%nat /\ out s = [Def 1%nat; Def 2%nat; Def 0%nat; Head 0%nat (mkm (Some 1%nat) [0%nat; 2%nat] true)]) /\
  (exists rank : tid -> nat, (forall t u, contains tab_met t u -> (rank u < rank t)%nat) /\ (forall t m u, bound tab_met t m -> head_type m u -> u = t \/ (rank u < rank t)%nat)) /\
  (exists rank : tid -> nat, forall t u, loose tab_met t -> loose tab_met u -> part tab_met t u -> (rank u < rank t)%nat).
Proof.
  set (rank := fun t : tid => nth t [9; 1; 3; 7; 6; 2; 0]%nat 0%nat).
  assert (P : forall t u, part tab_met t u -> (rank u < rank t)%nat).
  { intros t u H. destruct H as [t b fs ms H|t b fs ms u H I|t b H N|t b H|t r ps H|t r ps u H I]; destruct t as [|[|[|[|[|[|[|t]]]]]]]; cbn in H; try discriminate H; try (destruct t; discriminate H).
    - injection H as <- _ _. vm_compute. lia.
    - injection H as _ <- _. destruct I as [<-|[<-|[]]]; vm_compute; lia.
    - injection H as _ <- _. destruct I.
    - injection H as <-. exfalso. apply N. exact Logic.I.
    - injection H as <-. vm_compute. lia.
    - injection H as <-. vm_compute. lia.
    - injection H as <-. vm_compute. lia.
    - injection H as <- _. vm_compute. lia.
    - injection H as _ <-. destruct I as [<-|[]]; vm_compute; lia. }
  split; [|split; [|split]].
  - intros t _ _. split; intros; [destruct u as [|[|[|[|[|[|[|[|u]]]]]]]]; reflexivity|destruct u as [|[|[|[|[|[|[|[|u]]]]]]]]; reflexivity].
  - destruct (Gen tab_met 30 [] [0%nat; 1%nat; 2%nat]) as [s| | |] eqn:E; vm_compute in E; try discriminate. injection E as <-. eexists. split; [reflexivity|]. split; reflexivity.
  - exists rank. split; [intros t u [_ H]; auto|]. intros t m u (b & fs & ms & H & I) HT. destruct t as [|[|[|[|[|[|[|t]]]]]]]; cbn in H; try discriminate H; try (destruct t; discriminate H); injection H as _ _ <-; [|destruct I].
    destruct I as [<-|[]]. destruct HT as [r HR|u U]; cbn in *; [injection HR as <-; right; vm_compute; lia|]. destruct U as [<-|[<-|[]]]; [left; auto|right; vm_compute; lia].
  - exists rank. intros t u _ _ H. auto.
Qed.

Print Assumptions C88_order.
Print Assumptions C88_struct_partial.
Print Assumptions C88_cycle.
Print Assumptions C88_ends_partial.
Print Assumptions C88_accepts_partial.
Print Assumptions C88_ends_refuted.
Print Assumptions C88_accepts_refuted.
Print Assumptions C88_struct_refuted.
