(** C81: type-bound procedures are redefined safely. *)
From Verif Require Import Base AsgModel AsgSpec AsgProps TprocModel TprocSpec.

Lemma key_eqb_iff : forall a b, key_eqb a b = true <-> a = b.
Proof.
  intros [a1 a2] [b1 b2]. unfold key_eqb. cbn [fst snd]. rewrite andb_true_iff, Nat.eqb_eq, Z.eqb_eq.
  split; [intros []; congruence|]. intros H. inversion H. auto.
Qed.
Lemma key_refl : forall k, key_eqb k k = true.
Proof. intros. apply key_eqb_iff. auto. Qed.
Lemma own_app : forall ls ls' k, own (ls ++ ls') k = match own ls k with Some x => Some x | None => own ls' k end.
Proof. induction ls as [|[k' x] ls IH]; intros; cbn [own app]; auto. destruct (key_eqb k' k); auto. Qed.
Lemma own_replace : forall ls k x k', own (replace ls k x) k' =
  if key_eqb k k' then match own ls k with Some _ => Some x | None => None end else own ls k'.
Proof.
  induction ls as [|[k1 x1] ls IH]; intros; cbn [own replace].
  - destruct (key_eqb k k'); auto.
  - destruct (key_eqb k1 k) eqn:A; cbn [own].
    + apply key_eqb_iff in A. subst. destruct (key_eqb k k'); auto.
    + rewrite IH. destruct (key_eqb k1 k') eqn:B; auto. destruct (key_eqb k k') eqn:C; auto.
      apply key_eqb_iff in B. apply key_eqb_iff in C. subst. rewrite key_refl in A. discriminate.
Qed.
Lemma own_in : forall ls k x, own ls k = Some x -> In (k, x) ls.
Proof.
  induction ls as [|[k1 x1] ls IH]; intros k x H; cbn [own] in H; [discriminate|].
  destruct (key_eqb k1 k) eqn:A; [apply key_eqb_iff in A; inversion H; subst; left; auto|right; auto].
Qed.
Lemma bind_inv' : forall A B (m : res A) (k : A -> res B) b, bind m k = Ok b -> exists a, m = Ok a /\ k a = Ok b.
Proof. intros A B [] k b H; try discriminate. eauto. Qed.

Section WithTable.
Variable E : env.
Notation T t := (str E t).
Variable mno : tid -> Z.
Variable tvis : tid -> option Z.
Hypothesis TB : table E.

Lemma same_params_refl : forall p, same_params E p p.
Proof. induction p; constructor; auto. constructor. Qed.
Lemma agree_refl : forall m, agree E m m.
Proof. intros. split; [|split]; auto using same_params_refl. Qed.
Lemma agree_sym : forall m m', agree E m m' -> agree E m' m.
Proof. intros m m' (A & B & C). split; [|split]; auto. apply (proj2 (same_sym_both E)); auto. Qed.
Lemma agree_trans : forall a b c, agree E a b -> agree E b c -> agree E a c.
Proof.
  intros a b c (A & B & C) (A' & B' & C'). split; [|split]; try congruence.
  eapply (proj2 (same_trans_both E TB)); eauto.
Qed.

(** ** Chains of extensions *)
Lemma chain_linear : forall d a b, extends E d a -> extends E d b -> extends E a b \/ extends E b a.
Proof.
  intros d a b H. revert b. induction H; intros x X; auto.
  inversion X; subst.
  - right. eapply ext_step; eauto.
  - apply IHextends. congruence.
Qed.

Lemma FindField_some : forall fuel ls t n o x, FindField E fuel ls (Some t) n = Ok (Some (o, x)) -> scomp (T t) = Record_ ->
  extends E t o /\ own ls (o, n) = Some x.
Proof.
  induction fuel as [|k IH]; intros ls t n o x H R; cbn [FindField] in H; destruct (own ls (t, n)) eqn:O;
    try discriminate; try (inversion H; subst; split; auto; constructor).
  destruct (sbase (T t)) as [b|] eqn:B; [|destruct k; discriminate].
  destruct (IH _ _ _ _ _ H (t_rbase E TB _ _ R B)). split; auto. eapply ext_step; eauto.
Qed.
Lemma FindField_none : forall fuel ls t n, FindField E fuel ls (Some t) n = Ok None ->
  forall o, extends E t o -> own ls (o, n) = None.
Proof.
  induction fuel as [|k IH]; intros ls t n H o X; cbn [FindField] in H; destruct (own ls (t, n)) eqn:O; try discriminate.
  inversion X; subst; auto. rewrite H1 in H. eapply IH; eauto.
Qed.
Lemma FindField_mono : forall fuel ls t n r, FindField E fuel ls t n = Ok r -> FindField E (Datatypes.S fuel) ls t n = Ok r.
Proof.
  induction fuel as [|k IH]; intros ls t n r H.
  - destruct t as [t|]; auto. cbn [FindField] in H |- *. destruct (own ls (t, n)); auto. discriminate.
  - destruct t as [t|]; auto. cbn [FindField] in H. remember (Datatypes.S k) as k1. cbn [FindField].
    destruct (own ls (t, n)); auto; subst; apply IH; auto.
Qed.
Lemma FindField_up : forall fuel ls t n o x r, FindField E fuel ls (Some t) n = Ok (Some (o, x)) -> o <> t ->
  FindField E fuel ls (sbase (T t)) n = Ok r -> scomp (T t) = Record_ -> r = Some (o, x).
Proof.
  intros fuel ls t n o x r H N B R. destruct fuel as [|k]; cbn [FindField] in H; destruct (own ls (t, n)) eqn:O;
    try discriminate; try (inversion H; subst; congruence).
  apply FindField_mono in H. congruence.
Qed.
Lemma FindField_own : forall fuel ls t n x, own ls (t, n) = Some x -> FindField E fuel ls (Some t) n = Ok (Some (t, x)).
Proof. intros. destruct fuel; cbn [FindField]; rewrite H; auto. Qed.

Lemma Receiver_ok : forall mode typ rec, Receiver E mno mode typ = Ok (inl rec) -> receives E mode typ rec /\ mno rec = 0.
Proof.
  intros mode typ rec H. unfold Receiver in H. apply bind_inv' in H as (r & R & H).
  destruct (negb ((mode =? mVar) && is_form (sform (T typ)) FPointer && is_comp (scomp (T r)) Record_ ||
           (mode =? mVarPar) && is_comp (scomp (T typ)) Record_)) eqn:C; [discriminate|].
  destruct (negb (mno r =? 0)) eqn:M; [discriminate|]. inversion H; subst.
  apply negb_false_iff in C, M. apply Z.eqb_eq in M. split; auto.
  unfold receives. apply orb_true_iff in C as [C|C].
  - apply andb_true_iff in C as [C C3]. apply andb_true_iff in C as [C1 C2]. rewrite C2 in R.
    apply is_form_iff in C2. apply is_comp_iff in C3. apply Z.eqb_eq in C1. split; auto.
    right. repeat split; auto. destruct (sbase (T typ)); inversion R; auto.
  - apply andb_true_iff in C as [C1 C2]. apply is_comp_iff in C2. apply Z.eqb_eq in C1.
    destruct (is_form (sform (T typ)) FPointer) eqn:F.
    + apply is_form_iff in F. assert (sform (T typ) = FComp) by (apply (t_comp E TB); rewrite C2; discriminate). congruence.
    + inversion R; subst. auto.
Qed.

(** ** One declaration *)
Definition key (rec : tid) (d : decl) : tid * name := (rec, dname d).
Record step (ls : links) (d : decl) (ls' : links) (rec : tid) (m' : meth) : Prop := {
  s_rec : receives E (drmode d) (drtyp d) rec;
  s_mno : mno rec = 0;
  s_own : forall k, own ls' k = if key_eqb (key rec d) k then Some (MProc m') else own ls k;
  s_recv : (forall m, own ls (key rec d) = Some (MProc m) -> receives E (mrmode m) (mrtyp m) rec) -> receives E (mrmode m') (mrtyp m') rec;
  s_body : mbody m' = negb (dforward d);
  s_old : own ls (key rec d) = None \/
          exists m, own ls (key rec d) = Some (MProc m) /\ mbody m = false /\ agree E m m' /\ (mredef m = true -> mredef m' = true);
  s_redef : mredef m' = true ->
          (exists m, own ls (key rec d) = Some (MProc m) /\ mredef m = true /\ agree E m m') \/
          exists c o b, sbase (T rec) = Some c /\ extends E c o /\ own ls (o, dname d) = Some (MProc b) /\ agree E m' b;
  s_sig : exists m0, agree E m0 m' /\ mrmode m0 = drmode d /\ same_params E (dparams d) (mparams m0) /\ mres m0 = dres d;
}.
Lemma TProcDecl_step : forall fuel d ls er ls', TProcDecl E mno tvis fuel d (ls, er) = Ok (ls', []) -> er = [] /\
  exists rec m', step ls d ls' rec m'.
Proof.
  intros fuel d ls er ls' H. unfold TProcDecl in H. apply bind_inv' in H as (r & R & H).
  destruct r as [rec|e]; [|inversion H; destruct er; discriminate].
  destruct (Receiver_ok _ _ _ R) as [RC MN].
  apply bind_inv' in H as (fw & F & H). apply bind_inv' in H as (bp & B & H).
  set (b := match bp with Some (o, MProc m) => Some (o, m) | _ => None end) in H.
  set (f1 := match fw, b with Some (o, _), Some (o', _) => if Nat.eqb o o' then None else fw | _, _ => fw end) in H.
  set (f2 := match f1 with Some (o, _) => if negb (mno o =? 0) then None else f1 | None => None end) in H.
  set (new := mkm (dvis d) (drmode d) (drname d) (drtyp d) (dparams d) (dres d) false false) in H.
  apply bind_inv' in H as ([[[o proc] ls1] e1] & P1 & H). apply bind_inv' in H as ([proc2 e2] & P2 & H).
  assert (er ++ e1 ++ e2 = [] /\ ls' = replace ls1 (o, dname d) (MProc (if dforward d then proc2
      else mkm (mvis proc2) (mrmode proc2) (mrname proc2) (mrtyp proc2) (mparams proc2) (mres proc2) true (mredef proc2)))) as [EE LS].
  { inversion H. auto. }
  clear H. apply app_eq_nil in EE as [-> EE]. apply app_eq_nil in EE as [-> ->]. split; auto.
  assert (RR : scomp (T rec) = Record_) by apply RC.
  (* the object the declaration is about *)
  assert (Q : o = rec /\ own ls1 (key rec d) = Some (MProc proc) /\ (forall k, key_eqb (key rec d) k = false -> own ls1 k = own ls k) /\
    mbody proc = false /\ drmode d = mrmode proc /\ same_params E (dparams d) (mparams proc) /\ mres proc = dres d /\
    (own ls (key rec d) = None /\ proc = new \/ own ls (key rec d) = Some (MProc proc))).
  { assert (NEW : own ls (key rec d) = None -> Ok (rec, new, ls ++ [((rec, dname d), MProc new)], @nil Z) = Ok (o, proc, ls1, @nil Z) ->
      o = rec /\ own ls1 (key rec d) = Some (MProc proc) /\ (forall k, key_eqb (key rec d) k = false -> own ls1 k = own ls k) /\
    mbody proc = false /\ drmode d = mrmode proc /\ same_params E (dparams d) (mparams proc) /\ mres proc = dres d /\
    (own ls (key rec d) = None /\ proc = new \/ own ls (key rec d) = Some (MProc proc))).
    { intros N X. injection X as X1 X2 X3. subst o proc ls1. split; auto. split.
      { rewrite own_app, N. cbn [own]. rewrite key_refl. auto. }
      split. { intros k K. rewrite own_app. destruct (own ls k); auto. cbn [own]. unfold key in K. rewrite K. auto. }
      repeat split; auto. apply same_params_refl. }
    destruct f2 as [[o1 [|m1]]|] eqn:F2.
    - inversion P1.
    - destruct (negb (mbody m1)) eqn:BD; [|inversion P1]. apply negb_true_iff in BD.
      apply bind_inv' in P1 as (ep & CP & P1). injection P1 as X1 X2 X3 X4. subst o1 m1 ls1.
      apply app_eq_nil in X4 as [_ X4]. apply app_eq_nil in X4 as [-> X4].
      destruct (negb (Nat.eqb (dres d) (mres proc))) eqn:RS; [discriminate|]. apply negb_false_iff, Nat.eqb_eq in RS.
      assert (FW : fw = Some (o, MProc proc) /\ match b with Some (o', _) => o <> o' | None => True end).
      { unfold f2, f1 in F2. destruct fw as [[o2 x2]|]; [|discriminate]. destruct b as [[o3 b3]|].
        - destruct (Nat.eqb o2 o3) eqn:Q; [discriminate|]. apply Nat.eqb_neq in Q.
          destruct (negb (mno o2 =? 0)); [discriminate|]. inversion F2; subst. auto.
        - destruct (negb (mno o2 =? 0)); [discriminate|]. inversion F2; subst. auto. }
      destruct FW as [-> NB].
      assert (o = rec).
      { destruct (Nat.eq_dec o rec) as [|N]; auto. exfalso.
        pose proof (FindField_up _ _ _ _ _ _ _ F N B RR) as X. subst bp. unfold b in NB. congruence. }
      subst o. destruct (FindField_some _ _ _ _ _ _ F RR) as [_ OW].
      apply params_same in CP. inversion CP; subst. cbn [pr pmode ptyp] in *.
      repeat split; auto.
    - destruct (own ls (rec, dname d)) eqn:OW; [inversion P1|]. apply NEW; auto. }
  destruct Q as (-> & O1 & O2 & BD & RM & SP & RS & OLD).
  set (m' := if dforward d then proc2 else mkm (mvis proc2) (mrmode proc2) (mrname proc2) (mrtyp proc2) (mparams proc2) (mres proc2) true (mredef proc2)) in LS.
  assert (X : mbody proc2 = false /\ mrmode proc2 = mrmode proc /\ mrtyp proc2 = mrtyp proc /\ mparams proc2 = mparams proc /\ mres proc2 = mres proc /\
    (mredef proc = true -> mredef proc2 = true) /\
    (mredef proc2 = true -> mredef proc = true \/ exists c o b, sbase (T rec) = Some c /\ extends E c o /\ own ls (o, dname d) = Some (MProc b) /\
       mrmode proc = mrmode b /\ same_params E (mparams proc) (mparams b) /\ mres proc = mres b)).
  { unfold b in P2. destruct bp as [[ob [|mb]]|].
    - inversion P2; subst. repeat split; auto.
    - apply bind_inv' in P2 as (x & X & P2). apply bind_inv' in P2 as (ep & CP & P2).
      injection P2 as P2 P3. apply app_eq_nil in P3 as [P3 P4]. apply app_eq_nil in P4 as [-> P4]. apply app_eq_nil in P4 as [P4 _].
      subst proc2. cbn [mbody mrmode mrtyp mparams mres mredef]. repeat split; auto. intros _. right.
      destruct (sbase (T rec)) as [c|] eqn:SB; [|destruct fuel; discriminate].
      destruct (FindField_some _ _ _ _ _ _ B (t_rbase E TB _ _ RR SB)) as [X1 X2].
      exists c, ob, mb. repeat split; auto.
      + destruct (drmode d =? mrmode mb) eqn:Q; [|discriminate]. apply Z.eqb_eq in Q. congruence.
      + eapply params_same; eauto.
      + destruct (Nat.eqb (mres proc) (mres mb)) eqn:Q; [|discriminate]. apply Nat.eqb_eq in Q. auto.
    - inversion P2; subst. repeat split; auto. }
  destruct X as (X1 & X2 & X3 & X4 & X5 & X6 & X7).
  assert (M : mrmode m' = mrmode proc /\ mrtyp m' = mrtyp proc /\ mparams m' = mparams proc /\ mres m' = mres proc /\ mredef m' = mredef proc2 /\
    mbody m' = negb (dforward d)).
  { unfold m'. destruct (dforward d); cbn [mrmode mrtyp mparams mres mredef mbody negb]; repeat split; auto. }
  clearbody m'. destruct M as (M1 & M2 & M3 & M4 & M5 & M6).
  assert (AG : agree E proc m').
  { split; [|split]; try congruence. rewrite M3. apply same_params_refl. }
  exists rec, m'. constructor; auto.
  - intros k. subst ls'. rewrite own_replace. unfold key in O1. rewrite O1. destruct (key_eqb (rec, dname d) k) eqn:K; unfold key; rewrite K; auto.
  - intros OK. rewrite M1, M2. destruct OLD as [[_ ->]|O]; auto.
  - destruct OLD as [[N _]|O]; auto. right. exists proc. repeat split; auto; try apply AG. intros. rewrite M5. auto.
  - intros RD. rewrite M5 in RD. destruct (X7 RD) as [PR|(c & o & b0 & Y1 & Y2 & Y3 & Y4 & Y5 & Y6)].
    + left. destruct OLD as [[_ ->]|O]; [discriminate|]. eauto.
    + right. exists c, o, b0. repeat split; auto; congruence.
  - exists proc. repeat split; auto; apply AG.
Qed.

(** ** All declarations *)
Definition inv (ls0 ls : links) : Prop :=
  (forall t n m, own ls (t, n) = Some (MProc m) -> receives E (mrmode m) (mrtyp m) t) /\
  (forall t n, mno t <> 0 -> own ls (t, n) = own ls0 (t, n)) /\
  (forall t n m, mno t = 0 -> own ls (t, n) = Some (MProc m) -> mredef m = true ->
     exists c o b, sbase (T t) = Some c /\ extends E c o /\ own ls (o, n) = Some (MProc b) /\ agree E m b).
Lemma step_keeps : forall ls d ls' rec m', step ls d ls' rec m' -> forall k m, own ls k = Some (MProc m) ->
  exists m2, own ls' k = Some (MProc m2) /\ agree E m m2.
Proof.
  intros ls d ls' rec m' ST k m O. rewrite (s_own _ _ _ _ _ ST). destruct (key_eqb (key rec d) k) eqn:K.
  - apply key_eqb_iff in K. subst k. exists m'. split; auto.
    destruct (s_old _ _ _ _ _ ST) as [N|(m0 & O0 & _ & A & _)]; congruence.
  - exists m. split; auto. apply agree_refl.
Qed.
Lemma inv_step : forall ls0 ls d ls' rec m', step ls d ls' rec m' -> inv ls0 ls -> inv ls0 ls'.
Proof.
  intros ls0 ls d ls' rec m' ST (I1 & I2 & I3). split; [|split].
  - intros t n m O. rewrite (s_own _ _ _ _ _ ST) in O. destruct (key_eqb (key rec d) (t, n)) eqn:K; [|eauto].
    apply key_eqb_iff in K. inversion K; subst. inversion O; subst. apply (s_recv _ _ _ _ _ ST). intros m0 O0. apply (I1 _ _ _ O0).
  - intros t n M. rewrite (s_own _ _ _ _ _ ST). destruct (key_eqb (key rec d) (t, n)) eqn:K; [|auto].
    apply key_eqb_iff in K. inversion K; subst. pose proof (s_mno _ _ _ _ _ ST). contradiction.
  - assert (UP : forall t n m, (exists c o b, sbase (T t) = Some c /\ extends E c o /\ own ls (o, n) = Some (MProc b) /\ agree E m b) ->
      exists c o b, sbase (T t) = Some c /\ extends E c o /\ own ls' (o, n) = Some (MProc b) /\ agree E m b).
    { intros t n m (c & o & b & A & B & C & D). destruct (step_keeps _ _ _ _ _ ST _ _ C) as (b2 & C2 & D2).
      exists c, o, b2. repeat split; auto; eapply agree_trans; eauto. }
    intros t n m MT O RD. rewrite (s_own _ _ _ _ _ ST) in O. destruct (key_eqb (key rec d) (t, n)) eqn:K.
    + apply key_eqb_iff in K. inversion K; subst. inversion O; subst. apply UP.
      destruct (s_redef _ _ _ _ _ ST RD) as [(m0 & O0 & R0 & A0)|X]; auto.
      destruct (I3 _ _ _ MT O0 R0) as (c & o & b & A & B & C & D). exists c, o, b. repeat split; auto.
      all: eapply agree_trans; [apply agree_sym|]; eauto.
    + apply UP. eauto.
Qed.
Lemma declare_errors : forall fuel ds ls er ls', declare E mno tvis fuel ds (ls, er) = Ok (ls', []) -> er = [].
Proof.
  induction ds as [|d ds IH]; intros ls er ls' H; cbn [declare] in H; [inversion H; auto|].
  apply bind_inv' in H as ([ls1 er1] & H1 & H). apply IH in H. subst. eapply TProcDecl_step; eauto.
Qed.
Lemma declare_inv : forall fuel ds ls er ls' ls0, declare E mno tvis fuel ds (ls, er) = Ok (ls', []) -> inv ls0 ls -> inv ls0 ls'.
Proof.
  induction ds as [|d ds IH]; intros ls er ls' ls0 H I; cbn [declare] in H; [inversion H; subst; auto|].
  apply bind_inv' in H as ([ls1 er1] & H1 & H). pose proof (declare_errors _ _ _ _ _ H). subst.
  destruct (TProcDecl_step _ _ _ _ _ H1) as (_ & rec & m' & ST). eapply IH; eauto. eapply inv_step; eauto.
Qed.
Lemma Traverse_ok : forall fuel all ls, Traverse E mno fuel all ls = Ok [] -> forall t n m, In ((t, n), MProc m) ls -> mno t = 0 ->
  GetTProcNum E fuel all (t, n) m = Ok [].
Proof.
  induction ls as [|[k x] ls IH]; intros H t n m I M; [contradiction|]. cbn [Traverse] in H.
  destruct x as [|m1]; [destruct I as [I|I]; [inversion I|eauto]|].
  apply bind_inv' in H as (e1 & H1 & H). apply bind_inv' in H as (e2 & H2 & H). injection H as H.
  apply app_eq_nil in H as [-> ->]. destruct I as [I|I]; [|eauto].
  inversion I; subst. cbn [fst] in H1. rewrite M in H1. auto.
Qed.
Lemma num_ok : forall fuel ls t n m, GetTProcNum E fuel ls (t, n) m = Ok [] ->
  (mredef m = true \/ forall c o, sbase (T t) = Some c -> extends E c o -> own ls (o, n) = None) /\ (mbody m = true \/ mredef m = true).
Proof.
  intros fuel ls t n m H. unfold GetTProcNum in H. cbn [fst snd] in H. apply bind_inv' in H as (r & R & H). injection H as H.
  apply app_eq_nil in H as [H1 H2]. split.
  - destruct (mredef m); auto. right. destruct r; [discriminate|]. intros c o C X. rewrite C in R. eapply FindField_none; eauto.
  - destruct (mbody m), (mredef m); auto. discriminate.
Qed.
Lemma Module_inv : forall fuel ls0 ds ls, Module_ E mno tvis fuel ls0 ds = Ok (ls, []) ->
  declare E mno tvis fuel ds (ls0, []) = Ok (ls, []) /\
  forall t n m, mno t = 0 -> own ls (t, n) = Some (MProc m) -> GetTProcNum E fuel ls (t, n) m = Ok [].
Proof.
  intros fuel ls0 ds ls H. unfold Module_ in H. apply bind_inv' in H as ([ls1 er] & H1 & H). apply bind_inv' in H as (e & H2 & H).
  injection H as -> H. apply app_eq_nil in H as [-> ->]. split; auto.
  intros t n m M O. eapply Traverse_ok; eauto. apply own_in; auto.
Qed.

Section Ranked.
Variable rank : tid -> nat.
Hypothesis RK : ranked E rank.
Lemma extends_rank : forall d b, extends E d b -> (rank b <= rank d)%nat.
Proof. destruct RK as (R1 & _). intros d b H. induction H; auto. pose proof (R1 _ _ H H0). lia. Qed.
Lemma extends_mno : forall ls0, at_start E mno ls0 -> forall d b, extends E d b -> mno d <> 0 -> mno b <> 0.
Proof. intros ls0 (_ & A) d b H. induction H; auto. intros M. eapply IHextends, A; eauto. Qed.

(** An accepted module keeps the chains consistent: whatever the compiler accepts, procedures of the same name in a chain of extensions
    have the same kind of receiver, parameters and result. *)
Theorem C81_consistent : forall fuel ls0 ds ls, at_start E mno ls0 -> consistent E ls0 ->
  Module_ E mno tvis fuel ls0 ds = Ok (ls, []) -> consistent E ls.
Proof.
  intros fuel ls0 ds ls ST (C1 & C2) H. destruct (Module_inv _ _ _ _ H) as [HD HN].
  assert (I : inv ls0 ls).
  { eapply declare_inv; eauto. split; auto. split; auto. intros t n m M O. destruct (proj1 ST _ _ _ O M). }
  destruct I as (I1 & I2 & I3). split; auto.
  intros D. remember (rank D) as k. revert D Heqk. induction k as [k IH] using lt_wf_ind. intros D K B n mD mB X OD OB.
  destruct (Z.eq_dec (mno D) 0) as [MD|MD].
  2:{ pose proof (extends_mno _ ST _ _ X MD). rewrite I2 in OD, OB by auto. eauto. }
  inversion X; subst; [replace mB with mD by congruence; apply agree_refl|].
  pose proof (proj1 RK _ _ H0 H1) as RC.
  destruct (num_ok _ _ _ _ _ (HN _ _ _ MD OD)) as [[RD|N] _].
  2:{ rewrite (N _ _ H1 H2) in OB. discriminate. }
  destruct (I3 _ _ _ MD OD RD) as (c' & o & b & SB & XO & OO & AG). assert (c' = c) by congruence. subst c'.
  eapply agree_trans; [apply AG|].
  pose proof (extends_rank _ _ XO). pose proof (extends_rank _ _ H2).
  destruct (chain_linear _ _ _ XO H2) as [L|L].
  - eapply (IH (rank o)); eauto; lia.
  - apply agree_sym. eapply (IH (rank B)); eauto; lia.
Qed.

(** A call through a variable of static type [B] is checked against the member found from [B]; the procedure that a call with dynamic type
    [D] executes has the same parameters, passed in the same way, and the same result type, and its receiver is a base type of [D]. *)
Theorem C81_call : forall fuel fuel' ls0 ds ls B D n o m m', at_start E mno ls0 -> consistent E ls0 ->
  Module_ E mno tvis fuel ls0 ds = Ok (ls, []) ->
  scomp (T B) = Record_ -> FindField E fuel' ls (Some B) n = Ok (Some (o, MProc m)) ->
  extends E D B -> nearest E ls D n m' ->
  agree E m m' /\ exists t, receives E (mrmode m') (mrtyp m') t /\ extends E D t.
Proof.
  intros fuel fuel' ls0 ds ls B D n o m m' ST C H RB F X (o' & XO & OO & NE).
  destruct (C81_consistent _ _ _ _ ST C H) as (C1 & C2).
  destruct (FindField_some _ _ _ _ _ _ F RB) as [X1 O1]. split; [|eauto].
  apply agree_sym. apply (C2 o' o n); auto. apply (NE o m); auto. exact (extends_trans E _ _ _ X X1).
Qed.

(** Every procedure of the module that redefines nothing has a body.  (The full claim is refuted below.) *)
Theorem C81_body_partial : forall fuel ls0 ds ls t n m, Module_ E mno tvis fuel ls0 ds = Ok (ls, []) ->
  mno t = 0 -> own ls (t, n) = Some (MProc m) -> (forall c o, sbase (T t) = Some c -> extends E c o -> own ls (o, n) = None) ->
  at_start E mno ls0 -> consistent E ls0 -> mbody m = true.
Proof.
  intros fuel ls0 ds ls t n m H M O N ST C. destruct (Module_inv _ _ _ _ H) as [HD HN].
  destruct (num_ok _ _ _ _ _ (HN _ _ _ M O)) as [_ [|RD]]; auto.
  assert (I : inv ls0 ls).
  { eapply declare_inv; eauto. split; [apply C|]. split; auto. intros t' n' m' M' O'. destruct (proj1 ST _ _ _ O' M'). }
  destruct (proj2 (proj2 I) _ _ _ M O RD) as (c & o & b & A & B & D & _). rewrite (N _ _ A B) in D. discriminate.
Qed.

(** No procedure gets two bodies, and a procedure is a member exactly of the types it was declared for. *)
Definition keyof (d : decl) : option (tid * name) :=
  if is_form (sform (T (drtyp d))) FPointer then match sbase (T (drtyp d)) with Some t => Some (t, dname d) | None => None end
  else Some (drtyp d, dname d).
Lemma keyof_rec : forall d rec, receives E (drmode d) (drtyp d) rec -> keyof d = Some (rec, dname d).
Proof.
  intros d rec (R & [(_ & <-)|(_ & F & B)]); unfold keyof.
  - destruct (is_form (sform (T (drtyp d))) FPointer) eqn:F; auto. apply is_form_iff in F.
    assert (sform (T (drtyp d)) = FComp) by (apply (t_comp E TB); rewrite R; discriminate). congruence.
  - apply is_form_iff in F. rewrite F, B. auto.
Qed.
Lemma declare_once : forall fuel ds ls er ls', declare E mno tvis fuel ds (ls, er) = Ok (ls', []) ->
  NoDup (map keyof (filter (fun d => negb (dforward d)) ds)) /\
  (forall k m, own ls k = Some (MProc m) -> mbody m = true -> ~ In (Some k) (map keyof (filter (fun d => negb (dforward d)) ds))) /\
  (forall k, own ls' k <> own ls k -> exists d, In d ds /\ keyof d = Some k).
Proof.
  induction ds as [|d ds IH]; intros ls er ls' H; cbn [declare] in H.
  - inversion H; subst. cbn [filter map]. repeat split; [constructor|auto|congruence].
  - apply bind_inv' in H as ([ls1 er1] & H1 & H). pose proof (declare_errors _ _ _ _ _ H). subst.
    destruct (TProcDecl_step _ _ _ _ _ H1) as (_ & rec & m' & ST). destruct (IH _ _ _ H) as (N & B & K). clear IH.
    pose proof (keyof_rec _ _ (s_rec _ _ _ _ _ ST)) as KD.
    assert (OLD : forall m, own ls (key rec d) = Some (MProc m) -> mbody m = false).
    { intros m O. destruct (s_old _ _ _ _ _ ST) as [X|(m0 & O0 & X & _)]; congruence. }
    assert (B' : forall k m, own ls k = Some (MProc m) -> mbody m = true -> ~ In (Some k) (map keyof (filter (fun d => negb (dforward d)) ds))).
    { intros k m O BD. apply (B k m); auto. rewrite (s_own _ _ _ _ _ ST). destruct (key_eqb (key rec d) k) eqn:Q; auto.
      apply key_eqb_iff in Q. subst. rewrite (OLD _ O) in BD. discriminate. }
    cbn [filter map]. split; [|split].
    + destruct (dforward d) eqn:FD; cbn [negb]; auto. cbn [map]. constructor; auto. rewrite KD.
      apply (B (key rec d) m'); [|rewrite (s_body _ _ _ _ _ ST), FD; auto].
      rewrite (s_own _ _ _ _ _ ST), key_refl. auto.
    + intros k m O BD. destruct (dforward d) eqn:FD; cbn [negb]; eauto. cbn [map In]. intros [I|I]; [|eapply B'; eauto].
      rewrite KD in I. inversion I; subst. unfold key in OLD. rewrite (OLD _ O) in BD. discriminate.
    + intros k NE. destruct (key_eqb (key rec d) k) eqn:Q.
      * apply key_eqb_iff in Q. subst. exists d. split; [left|]; auto.
      * assert (own ls' k <> own ls1 k) as X by (rewrite (s_own _ _ _ _ _ ST), Q; auto).
        destruct (K _ X) as (d' & I & KK). exists d'. split; [right|]; auto.
Qed.
Theorem C81_one_body : forall fuel ls0 ds ls a d b d' c, Module_ E mno tvis fuel ls0 ds = Ok (ls, []) ->
  ds = a ++ d :: b ++ d' :: c -> dforward d = false -> dforward d' = false ->
  forall t, receives E (drmode d) (drtyp d) t -> receives E (drmode d') (drtyp d') t -> dname d <> dname d'.
Proof.
  intros fuel ls0 ds ls a d b d' c H -> F F' t R R' Q. destruct (Module_inv _ _ _ _ H) as [HD _].
  destruct (declare_once _ _ _ _ _ HD) as (N & _). rewrite filter_app in N. cbn [filter] in N. rewrite F in N. cbn [negb] in N.
  rewrite filter_app in N. cbn [filter] in N. rewrite F' in N. cbn [negb] in N. rewrite map_app in N. cbn [map] in N. apply NoDup_remove_2 in N. apply N.
  apply in_or_app. right. rewrite map_app. apply in_or_app. right. cbn [map]. left.
  rewrite (keyof_rec _ _ R), (keyof_rec _ _ R'), Q. auto.
Qed.

(** ** The rules of the language suffice *)
Lemma strip_complete : forall fuel f a f' a', strip E fuel f a = Ok (f', a') -> same E f a ->
  same E f' a' /\ ~ (scomp (T f') = DynArr /\ scomp (T a') = DynArr).
Proof.
  induction fuel as [|k IH]; intros f a f' a' H S; cbn [strip] in H;
    destruct (is_comp (fcomp E f) DynArr && is_comp (fcomp E a) DynArr) eqn:C; try discriminate.
  1,3: inversion H; subst; split; auto; intros [X Y]; unfold fcomp in C; rewrite X, Y in C; discriminate.
  apply andb_true_iff in C as [C1 C2]. apply is_comp_iff in C1. apply is_comp_iff in C2. unfold fcomp in C1, C2.
  apply bind_inv' in H as (fb & F & H). apply bind_inv' in H as (ab & A & H). unfold deref, baseof in F, A.
  destruct (sbase (T f)) as [fb'|] eqn:FB; [|discriminate]. destruct (sbase (T a)) as [ab'|] eqn:AB; [|discriminate].
  inversion F; inversion A; subst. apply (IH _ _ _ _ H).
  inversion S; subst.
  - replace ab with fb by congruence. constructor.
  - congruence.
  - assert (sform (T f) = FComp) by (apply (t_comp E TB); rewrite C1; discriminate). congruence.
Qed.
Lemma params_complete : forall fuel fp ap e, CheckParameters E fuel fp ap false = Ok e -> same_params E fp ap -> e = [].
Proof.
  induction fuel as [|k IH]; intros fp ap e H S; [discriminate|]. cbn [CheckParameters] in H.
  inversion S; subst; [inversion H; auto|].
  apply bind_inv' in H as ([ft at_] & ST & H). apply bind_inv' in H as (e1 & H3 & H). apply bind_inv' in H as (e3 & H4 & H).
  injection H as <-. rewrite (IH _ _ _ H4 H2). rewrite H0, Z.eqb_refl. cbn [negb orb andb]. rewrite !app_nil_r.
  destruct (strip_complete _ _ _ _ _ ST H1) as [SM ND].
  inversion SM; subst.
  - rewrite Nat.eqb_refl in H3. inversion H3; auto.
  - destruct ND; auto.
  - destruct (Nat.eqb ft at_); [inversion H3; auto|].
    assert (is_form (fform E ft) FProc && is_form (fform E at_) FProc = true) as X.
    { apply andb_true_iff. split; apply is_form_iff; auto. }
    rewrite X in H3. unfold baseof in H3. rewrite H6 in H3. destruct (sbase (T at_)) as [bt|].
    + rewrite Nat.eqb_refl in H3. eapply IH; eauto.
    + eapply IH; eauto.
Qed.
Lemma params_ok : forall fp ap, same_params E fp ap -> exists k, forall fuel, (k <= fuel)%nat -> CheckParameters E fuel fp ap false = Ok [].
Proof.
  intros fp ap S.
  assert (exists n, forall p, In p fp -> (rank (ptyp p) < n)%nat) as [n N].
  { clear S. induction fp as [|p fp [n N]]; [exists 0%nat; contradiction|].
    exists (Datatypes.S (rank (ptyp p) + n)). intros q [->|Q]; [lia|]. pose proof (N q Q). lia. }
  destruct (params_end E TB rank RK n fp N false ap) as [k K]. exists k. intros fuel L. destruct (K fuel L) as [e HE].
  rewrite HE. rewrite (params_complete _ _ _ _ HE S). auto.
Qed.
Lemma FindField_mono' : forall d fuel ls t n r, FindField E fuel ls t n = Ok r -> FindField E (d + fuel) ls t n = Ok r.
Proof. induction d; intros; auto. cbn [Nat.add]. apply FindField_mono. auto. Qed.
Lemma FindField_ends : forall ls n t, match t with Some t => scomp (T t) = Record_ | None => True end ->
  exists k r, forall fuel, (k <= fuel)%nat -> FindField E fuel ls t n = Ok r.
Proof.
  intros ls n t R.
  assert (exists k r, FindField E k ls t n = Ok r) as (k & r & K).
  { destruct t as [t|]; [|exists 0%nat, None; auto]. remember (rank t) as q. revert t R Heqq.
    induction q as [q IH] using lt_wf_ind. intros t R Q. destruct (own ls (t, n)) as [x|] eqn:O.
    - exists 0%nat, (Some (t, x)). apply FindField_own; auto.
    - destruct (sbase (T t)) as [b|] eqn:B.
      + destruct (IH (rank b) ltac:(pose proof (proj1 RK _ _ R B); lia) b (t_rbase E TB _ _ R B) eq_refl) as (k & r & K).
        exists (Datatypes.S k), r. cbn [FindField]. rewrite O, B. auto.
      + exists 1%nat, None. cbn [FindField]. rewrite O, B. auto. }
  exists k, r. intros fuel L. replace fuel with ((fuel - k) + k)%nat by lia. apply FindField_mono'; auto.
Qed.
Lemma up_ok : forall c b, extends E c b -> forall x fuel, sbase (T x) = Some c -> (rank c <= fuel)%nat -> up E fuel x b = Ok true.
Proof.
  intros c b H. induction H; intros x fuel SB L.
  - destruct fuel; cbn [up]; rewrite SB, Nat.eqb_refl; auto.
  - pose proof (proj1 RK _ _ H H0). destruct fuel as [|k]; [lia|]. cbn [up]. rewrite SB. destruct (Nat.eqb d b); auto.
    apply IHextends; auto. lia.
Qed.
Lemma comp_not_pointer : forall t, scomp (T t) = Record_ -> is_form (sform (T t)) FPointer = false.
Proof.
  intros t R. assert (sform (T t) = FComp) as -> by (apply (t_comp E TB); rewrite R; discriminate). auto.
Qed.
Lemma Extends_ok : forall mode x t y o c, receives E mode x t -> receives E mode y o -> sbase (T t) = Some c -> extends E c o ->
  forall fuel, (rank c <= fuel)%nat -> Extends E fuel x y = Ok true.
Proof.
  intros mode x t y o c (RT & RX) (RO & RY) SB X fuel L. unfold Extends.
  assert (RE : forall t, scomp (T t) = Record_ -> is_comp (scomp (T t)) Record_ = true) by (intros; apply is_comp_iff; auto).
  destruct RX as [(M & ->)|(M & F & B)], RY as [(M' & ->)|(M' & F' & B')]; try (rewrite M in M'; discriminate).
  - rewrite (comp_not_pointer o RO). cbn [andb bind]. rewrite !RE by auto. cbn [andb]. eapply up_ok; eauto.
  - rewrite F, F', B, B'. change (is_form FPointer FPointer) with true. cbn [andb deref bind]. rewrite !RE by auto. cbn [andb]. eapply up_ok; eauto.
Qed.
Lemma Receiver_accepts : forall mode typ t, receives E mode typ t -> mno t = 0 -> Receiver E mno mode typ = Ok (inl t).
Proof.
  intros mode typ t (R & H) M. unfold Receiver. pose proof (proj2 (is_comp_iff _ _) R) as C. destruct H as [(-> & ->)|(-> & F & B)].
  - rewrite (comp_not_pointer _ R). cbn [bind]. rewrite C, M. auto.
  - rewrite F, B. change (is_form FPointer FPointer) with true. cbn [deref bind]. rewrite C, M. auto.
Qed.

Definition from (d : decl) (m : meth) : Prop :=
  mvis m = dvis d /\ mrmode m = drmode d /\ mrtyp m = drtyp d /\ mparams m = dparams d /\ mres m = dres d /\ mbody m = true.
Definition so_far (ls0 : links) (a : list decl) (ls : links) : Prop :=
  (forall t n, own ls (t, n) = own ls0 (t, n) \/
     exists d m, In d a /\ has_key E d t n /\ own ls (t, n) = Some (MProc m) /\ from d m) /\
  (forall t n, (forall d, In d a -> ~ has_key E d t n) -> own ls (t, n) = own ls0 (t, n)) /\
  (forall t n m, mno t = 0 -> own ls (t, n) = Some (MProc m) -> mredef m = true \/
     forall c o, sbase (T t) = Some c -> extends E c o -> own ls (o, n) = None) /\
  NoDup (map fst ls).
Lemma own_none : forall ls k, own ls k = None -> ~ In k (map fst ls).
Proof.
  induction ls as [|[k' x] ls IH]; intros k H I; [contradiction|]. cbn [own] in H. destruct (key_eqb k' k) eqn:Q; [discriminate|].
  destruct I as [I|I]; [cbn [fst] in I; subst; rewrite key_refl in Q; discriminate|]. eapply IH; eauto.
Qed.
Lemma in_own : forall ls k x, NoDup (map fst ls) -> In (k, x) ls -> own ls k = Some x.
Proof.
  induction ls as [|[k' y] ls IH]; intros k x N I; [contradiction|]. cbn [map fst] in N. inversion N; subst. cbn [own].
  destruct I as [I|I]; [inversion I; subst; rewrite key_refl; auto|].
  destruct (key_eqb k' k) eqn:Q; [|auto]. apply key_eqb_iff in Q. subst. destruct H1. apply (in_map fst) in I. auto.
Qed.
Lemma replace_last : forall ls k x y, own ls k = None -> replace (ls ++ [(k, x)]) k y = ls ++ [(k, y)].
Proof.
  induction ls as [|[k' z] ls IH]; intros k x y H; cbn [app replace own] in *.
  - rewrite key_refl. auto.
  - destruct (key_eqb k' k); [discriminate|]. rewrite IH; auto.
Qed.
Lemma proper : forall t c o, scomp (T t) = Record_ -> sbase (T t) = Some c -> extends E c o -> extends E t o /\ o <> t.
Proof.
  intros t c o R B X. split; [eapply ext_step; eauto|]. intros ->. pose proof (proj1 RK _ _ R B). pose proof (extends_rank _ _ X). lia.
Qed.
Lemma receives_fun : forall mode typ t t', receives E mode typ t -> receives E mode typ t' -> t = t'.
Proof.
  intros mode typ t t' (_ & [(A & B)|(A & B & C)]) (_ & [(A' & B')|(A' & B' & C')]); try congruence; rewrite A in A'; discriminate.
Qed.

Lemma step_accepts : forall ls0 a d rest ls, at_start E mno ls0 -> consistent E ls0 -> rules E mno tvis ls0 (a ++ d :: rest) -> so_far ls0 a ls ->
  exists k ls', (forall fuel, (k <= fuel)%nat -> TProcDecl E mno tvis fuel d (ls, []) = Ok (ls', [])) /\ so_far ls0 (a ++ [d]) ls'.
Proof.
  intros ls0 a d rest ls ST CO RU (J1 & J2 & J3 & J4).
  destruct (RU a d rest eq_refl) as (FW & t & RC & MT & ON & NK & UP).
  assert (RT : scomp (T t) = Record_) by apply RC.
  assert (O0 : own ls (t, dname d) = None) by (rewrite J2; auto).
  assert (METH : forall o x, own ls (o, dname d) = Some x -> extends E t o -> o <> t ->
     exists m, x = MProc m /\ fits E tvis ls0 t d m /\ receives E (mrmode m) (mrtyp m) o).
  { intros o x O X NE. destruct (UP o X NE) as (U1 & U2 & U3 & _). destruct (J1 o (dname d)) as [Q|(d1 & m & I & HK & Q & FR)].
    - rewrite Q in O. destruct x as [|m]; [contradiction|]. exists m. split; auto. split; auto. apply (proj1 CO _ _ _ O).
    - rewrite Q in O. inversion O; subst. exists m. split; auto. destruct FR as (F1 & F2 & F3 & F4 & F5 & F6).
      destruct (U3 d1 I HK) as [(A1 & A2 & A3) V]. split.
      + split; [split; [|split]|].
        * rewrite F2. auto.
        * rewrite F4. auto.
        * rewrite F5. auto.
        * rewrite F1. auto.
      + rewrite F2, F3. apply HK. }
  destruct (FindField_ends ls (dname d) (sbase (T t))) as (k1 & r & K1).
  { destruct (sbase (T t)) eqn:B; auto. eapply (t_rbase E TB); eauto. }
  assert (K1' : forall fuel, (Datatypes.S k1 <= fuel)%nat -> FindField E fuel ls (Some t) (dname d) = Ok r).
  { intros fuel L. destruct fuel as [|f]; [lia|]. cbn [FindField]. rewrite O0. apply K1. lia. }
  set (redef := match r with Some _ => true | None => false end).
  set (m' := mkm (dvis d) (drmode d) (drname d) (drtyp d) (dparams d) (dres d) true redef).
  set (new := mkm (dvis d) (drmode d) (drname d) (drtyp d) (dparams d) (dres d) false false).
  assert (RSP : match r with
     | None => forall c o, sbase (T t) = Some c -> extends E c o -> own ls (o, dname d) = None
     | Some (o, x) => exists c m, sbase (T t) = Some c /\ extends E c o /\ x = MProc m /\ fits E tvis ls0 t d m /\ receives E (mrmode m) (mrtyp m) o
     end).
  { specialize (K1 k1 ltac:(lia)). destruct r as [[o x]|].
    - destruct (sbase (T t)) as [c|] eqn:B; [|destruct k1; discriminate].
      destruct (FindField_some _ _ _ _ _ _ K1 (t_rbase E TB _ _ RT B)) as [X O].
      destruct (proper _ _ _ RT B X) as [X' NE]. destruct (METH _ _ O X' NE) as (m & A1 & A2 & A3). exists c, m. auto.
    - intros c o B X. rewrite B in K1. eapply FindField_none; eauto. }
  assert (exists k, forall fuel, (k <= fuel)%nat -> TProcDecl E mno tvis fuel d (ls, []) = Ok (ls ++ [((t, dname d), MProc m')], [])) as [k K].
  { destruct r as [[o x]|].
    - destruct RSP as (c & m & B & X & -> & ((A1 & A2 & A3) & V) & RM). cbn [meth_of mrmode mparams mres] in A1, A2, A3.
      destruct (params_ok _ _ A2) as [k2 K2]. exists (Datatypes.S (k1 + k2 + rank c)). intros fuel L.
      unfold TProcDecl. rewrite (Receiver_accepts _ _ _ RC MT). rewrite bind_ok. rewrite K1', K1 by lia. rewrite !bind_ok. rewrite Nat.eqb_refl. rewrite O0. rewrite bind_ok.
      rewrite A1 in RC. rewrite (Extends_ok _ _ _ _ _ _ RC RM B X) by lia. rewrite bind_ok. cbn [mparams]. rewrite K2 by lia. rewrite !bind_ok.
      rewrite FW. cbn [mrmode mres mvis mredef mrname mrtyp mparams]. rewrite A1, A3, Z.eqb_refl, Nat.eqb_refl. cbn [negb orb app].
      rewrite replace_last by auto.
      match goal with |- context [if ?g then [109] else _] => assert (g = false) as -> end.
      { destruct (mvis m =? external) eqn:V1; auto. destruct (dvis d =? internal) eqn:V2; auto. cbn [andb].
        destruct (tvis t) as [v|] eqn:V3; auto. destruct (v =? external) eqn:V4; auto. destruct V.
        apply Z.eqb_eq in V1, V2, V4. subst. repeat split; auto. }
      unfold m', redef. rewrite A1, A3. auto.
    - exists (Datatypes.S k1). intros fuel L.
      unfold TProcDecl. rewrite (Receiver_accepts _ _ _ RC MT). rewrite bind_ok. rewrite K1', K1 by lia. rewrite !bind_ok. rewrite O0. cbn beta iota. rewrite ?bind_ok. cbn beta iota. rewrite ?bind_ok.
      rewrite FW. cbn [app]. rewrite replace_last by auto. reflexivity. }
  exists k, (ls ++ [((t, dname d), MProc m')]). split; auto.
  assert (OW : forall k, own (ls ++ [((t, dname d), MProc m')]) k = if key_eqb (t, dname d) k then Some (MProc m') else own ls k).
  { intros kk. rewrite own_app. destruct (key_eqb (t, dname d) kk) eqn:Q.
    - apply key_eqb_iff in Q. subst. rewrite O0. cbn [own]. rewrite key_refl. auto.
    - destruct (own ls kk); auto. cbn [own]. rewrite Q. auto. }
  assert (HK : has_key E d t (dname d)) by (split; auto).
  split; [|split; [|split]].
  - intros t1 n1. rewrite OW. destruct (key_eqb (t, dname d) (t1, n1)) eqn:Q.
    + apply key_eqb_iff in Q. inversion Q; subst. right. exists d, m'. split; [apply in_or_app; right; left; auto|]. split; auto.
      split; auto. unfold from, m'. cbn. repeat split; auto.
    + destruct (J1 t1 n1) as [|(d1 & m1 & I & X)]; auto. right. exists d1, m1. split; auto. apply in_or_app. auto.
  - intros t1 n1 N. rewrite OW. destruct (key_eqb (t, dname d) (t1, n1)) eqn:Q.
    + apply key_eqb_iff in Q. inversion Q; subst. destruct (N d); auto. apply in_or_app; right; left; auto.
    + apply J2. intros d1 I. apply N. apply in_or_app. auto.
  - intros t1 n1 m1 M1 O1. rewrite OW in O1. destruct (key_eqb (t, dname d) (t1, n1)) eqn:Q.
    + apply key_eqb_iff in Q. inversion Q; subst. inversion O1; subst. unfold m', redef. cbn [mredef]. destruct r as [[o x]|]; auto.
      right. intros c o B X. rewrite OW. destruct (key_eqb (t1, dname d) (o, dname d)) eqn:Q2.
      * apply key_eqb_iff in Q2. inversion Q2; subst. destruct (proper _ _ _ RT B X) as [_ NE]. congruence.
      * eauto.
    + destruct (J3 _ _ _ M1 O1) as [|N]; auto. right. intros c o B X. rewrite OW.
      destruct (key_eqb (t, dname d) (o, n1)) eqn:Q2; [|eauto]. exfalso.
      apply key_eqb_iff in Q2. inversion Q2; subst.
      destruct (J1 t1 (dname d)) as [Q3|(d1 & m2 & I & HK1 & _)].
      { rewrite Q3 in O1. destruct (proj1 ST _ _ _ O1 M1). }
      apply in_split in I as (a1 & a2 & ->).
      pose proof (RU a1 d1 (a2 ++ d :: rest)) as RU1. rewrite <- app_assoc in RU1. specialize (RU1 eq_refl).
      destruct RU1 as (_ & t2 & RC2 & _ & _ & _ & UP2). destruct HK1 as [RC1 N1].
      assert (t2 = t1) by (eapply receives_fun; eauto). subst t2.
      assert (R1 : scomp (T t1) = Record_) by apply RC1.
      destruct (proper _ _ _ R1 B X) as [X' NE]. destruct (UP2 o X' NE) as (_ & _ & _ & U). rewrite N1 in U. apply (U d); auto.
      apply in_or_app. right. left. auto.
  - rewrite map_app. cbn [map fst]. apply NoDup_remove with (l' := []) (a := (t, dname d)) || idtac.
    assert (NI : ~ In (t, dname d) (map fst ls)) by (apply own_none; auto).
    clear - J4 NI. induction (map fst ls) as [|y l IH]; cbn [app]; [repeat constructor; auto|].
    inversion J4; subst. constructor.
    + intros I. apply in_app_or in I as [I|[I|[]]]; [auto|]. apply NI. left. auto.
    + apply IH; auto. intros I. apply NI. right. auto.
Qed.
Lemma declare_accepts : forall ls0 rest a ls, at_start E mno ls0 -> consistent E ls0 -> rules E mno tvis ls0 (a ++ rest) -> so_far ls0 a ls ->
  exists k ls', (forall fuel, (k <= fuel)%nat -> declare E mno tvis fuel rest (ls, []) = Ok (ls', [])) /\ so_far ls0 (a ++ rest) ls'.
Proof.
  intros ls0. induction rest as [|d rest IH]; intros a ls ST CO RU J.
  - exists 0%nat, ls. rewrite app_nil_r. split; auto.
  - destruct (step_accepts _ _ _ _ _ ST CO RU J) as (k1 & ls1 & K1 & J1).
    destruct (IH (a ++ [d]) ls1 ST CO) as (k2 & ls2 & K2 & J2); auto.
    { rewrite <- app_assoc. auto. }
    rewrite <- app_assoc in J2. cbn [app] in J2. exists (k1 + k2)%nat, ls2. split; auto.
    intros fuel L. cbn [declare]. rewrite K1 by lia. rewrite bind_ok. apply K2. lia.
Qed.
Lemma Traverse_accepts : forall all ls,
  (forall t n m, In ((t, n), MProc m) ls -> mno t = 0 -> exists k, forall fuel, (k <= fuel)%nat -> GetTProcNum E fuel all (t, n) m = Ok []) ->
  exists k, forall fuel, (k <= fuel)%nat -> Traverse E mno fuel all ls = Ok [].
Proof.
  induction ls as [|[[t n] x] ls IH]; intros H; [exists 0%nat; auto|].
  destruct IH as [k2 K2]; [intros; eapply H; eauto; right; auto|].
  destruct x as [|m]; [exists k2; auto|]. destruct (Z.eq_dec (mno t) 0) as [M|M].
  - destruct (H t n m (or_introl eq_refl) M) as [k1 K1]. exists (k1 + k2)%nat. intros fuel L. cbn [Traverse fst].
    rewrite M, Z.eqb_refl, K1, K2 by lia. auto.
  - exists k2. intros fuel L. cbn [Traverse fst]. apply Z.eqb_neq in M. rewrite M, K2 by lia. auto.
Qed.
(** A module whose declarations follow the rules of the language is accepted: the check ends without an error, and every declared procedure
    is then a member of its type. *)
Theorem C81_accepts : forall ls0 ds, at_start E mno ls0 -> consistent E ls0 -> NoDup (map fst ls0) -> rules E mno tvis ls0 ds ->
  exists k ls, (forall fuel, (k <= fuel)%nat -> Module_ E mno tvis fuel ls0 ds = Ok (ls, [])) /\
    forall d t, In d ds -> has_key E d t (dname d) -> exists m, own ls (t, dname d) = Some (MProc m) /\ mbody m = true /\ agree E (meth_of d) m.
Proof.
  intros ls0 ds ST CO ND RU.
  destruct (declare_accepts ls0 ds [] ls0 ST CO RU) as (k1 & ls & K1 & J1 & J2 & J3 & J4).
  { split; [|split; [|split]]; auto. intros t n m M O. destruct (proj1 ST _ _ _ O M). }
  cbn [app] in *.
  destruct (Traverse_accepts ls ls) as (k2 & K2).
  { intros t n m I M. apply in_own in I; auto. destruct (J1 t n) as [Q|(d & m1 & I1 & HK & Q & FR)].
    { rewrite Q in I. destruct (proj1 ST _ _ _ I M). }
    assert (m1 = m) by congruence. subst m1.
    assert (RT : scomp (T t) = Record_) by apply HK.
    destruct (FindField_ends ls n (sbase (T t))) as (k & r & K).
    { destruct (sbase (T t)) eqn:B; auto. eapply (t_rbase E TB); eauto. }
    exists k. intros fuel L. unfold GetTProcNum. cbn [fst snd]. rewrite K by auto. rewrite bind_ok.
    destruct FR as (_ & _ & _ & _ & _ & ->). cbn [negb andb]. rewrite app_nil_r.
    destruct r as [[o x]|]; auto. destruct (J3 _ _ _ M I) as [->|N]; auto. exfalso.
    specialize (K k ltac:(lia)). destruct (sbase (T t)) as [c|] eqn:B; [|destruct k; discriminate].
    destruct (FindField_some _ _ _ _ _ _ K (t_rbase E TB _ _ RT B)) as [X O]. rewrite (N _ _ eq_refl X) in O. discriminate. }
  exists (k1 + k2)%nat, ls. split.
  - intros fuel L. unfold Module_. rewrite K1 by lia. rewrite bind_ok. rewrite K2 by lia. auto.
  - intros d t I HK. destruct (J1 t (dname d)) as [Q|(d1 & m1 & I1 & HK1 & Q & FR)].
    + exfalso. specialize (K1 k1 ltac:(lia)). clear - K1 I HK Q TB RU. 
      apply in_split in I as (a & b & ->). destruct (RU a d b eq_refl) as (_ & t1 & RC & _ & ON & _).
      assert (t1 = t) by (destruct HK; eapply receives_fun; eauto). subst t1. rewrite ON in Q.
      assert (KEEP : forall ds ls er ls', declare E mno tvis k1 ds (ls, er) = Ok (ls', []) -> forall k m, own ls k = Some (MProc m) -> own ls' k <> None).
      { induction ds as [|e ds IH]; intros l er l' D k m O; cbn [declare] in D; [inversion D; subst; congruence|].
        apply bind_inv' in D as ([l1 er1] & D1 & D). pose proof (declare_errors _ _ _ _ _ D). subst.
        destruct (TProcDecl_step _ _ _ _ _ D1) as (_ & rec & m' & STP). destruct (step_keeps _ _ _ _ _ STP _ _ O) as (m2 & O2 & _).
        eapply IH; eauto. }
      clear RU ON RC. revert K1. generalize (@nil Z) at 1. generalize ls0. induction a as [|e a IH]; intros l er D; cbn [declare app] in D;
        apply bind_inv' in D as ([l1 er1] & D1 & D); [|eapply IH; eauto].
      pose proof (declare_errors _ _ _ _ _ D). subst. destruct (TProcDecl_step _ _ _ _ _ D1) as (_ & rec & m' & STP).
      assert (rec = t) by (destruct HK; eapply receives_fun; [apply (s_rec _ _ _ _ _ STP)|eauto]). subst rec.
      eapply (KEEP _ _ _ _ D (t, dname d) m'); auto. rewrite (s_own _ _ _ _ _ STP). unfold key. rewrite key_refl. auto.
    + assert (d1 = d).
      { apply in_split in I as (a & b & ->). destruct (RU a d b eq_refl) as (_ & t1 & RC & _ & _ & NK & _).
        assert (t1 = t) by (destruct HK; eapply receives_fun; eauto). subst t1.
        apply in_app_or in I1 as [I1|[I1|I1]]; auto; [destruct (NK _ I1 HK1)|].
        apply in_split in I1 as (b1 & b2 & ->).
        pose proof (RU (a ++ d :: b1) d1 b2) as RU1. rewrite <- app_assoc in RU1. specialize (RU1 eq_refl).
        destruct RU1 as (_ & t1 & RC1 & _ & _ & NK1 & _).
        assert (t1 = t) by (destruct HK1; eapply receives_fun; eauto). subst t1. destruct (NK1 d); [apply in_or_app; right; left; auto|].
        split; auto. destruct HK1 as [_ ->]. auto. }
      subst d1. exists m1. destruct FR as (F1 & F2 & F3 & F4 & F5 & F6). split; auto. split; auto.
      split; [|split]; cbn [meth_of mrmode mparams mres]; try congruence. rewrite F4. apply same_params_refl.
Qed.
End Ranked.
End WithTable.

(** ** A concrete module: [TYPE B = RECORD END; E = RECORD (B) END; PB = POINTER TO B; PE = POINTER TO E;
     F = PROCEDURE (c: CHAR); G = PROCEDURE (c: CHAR);
     PROCEDURE ^ (e: PE) m (f: G); PROCEDURE (b: PB) m (f: F); PROCEDURE (e: PE) m (f: G); ...] *)
Definition dl (fw : bool) (t : tid) (n : name) (v : Z) (f : tid) : decl :=
  mkd fw mVar [120] t n v [par mVar f] 5.
Definition here (t : tid) : Z := 0.
Definition shown (t : tid) : option Z := Some external.
Definition start : links := [((11%nat, 1), MField); ((12%nat, 2), MField)].
Example start_ok : at_start (demo false) here start /\ consistent (demo false) start /\ NoDup (map fst start).
Proof.
  assert (N : forall t n m, own start (t, n) <> Some (MProc m)).
  { intros t n m H. apply own_in in H. destruct H as [H|[H|[]]]; inversion H. }
  split; [|split].
  - split; [intros t n m O; destruct (N _ _ _ O)|]. intros t b _ _ H. destruct (H eq_refl).
  - split; [intros t n m O; destruct (N _ _ _ O)|]. intros D B n mD mB _ O. destruct (N _ _ _ O).
  - apply NoDup_cons; [cbn; intros [H|[]]; inversion H|]. apply NoDup_cons; [intros []|constructor].
Qed.
(** A redefinition with an equal, not identical, procedure type is accepted; the body of a forward declaration is found. *)
Definition good : list decl := [dl false 13 7 1 6; dl true 14 7 1 7; dl false 14 7 1 7; dl false 14 8 0 2].
Example C81_example : exists ls, Module_ (demo false) here shown 9 start good = Ok (ls, []) /\
  own ls (11%nat, 7) = Some (MProc (mkm 1 mVar [120] 13 [par mVar 6] 5 true false)) /\
  own ls (12%nat, 7) = Some (MProc (mkm 1 mVar [120] 14 [par mVar 7] 5 true true)) /\
  extends (demo false) 12 11 /\
  FindField (demo false) 3 ls (Some 11%nat) 7 = Ok (Some (11%nat, MProc (mkm 1 mVar [120] 13 [par mVar 6] 5 true false))) /\
  nearest (demo false) ls 12 7 (mkm 1 mVar [120] 14 [par mVar 7] 5 true true).
Proof.
  exists [((11%nat, 1), MField); ((12%nat, 2), MField); ((11%nat, 7), MProc (mkm 1 mVar [120] 13 [par mVar 6] 5 true false));
     ((12%nat, 7), MProc (mkm 1 mVar [120] 14 [par mVar 7] 5 true true)); ((12%nat, 8), MProc (mkm 0 mVar [120] 14 [par mVar 2] 5 true false))].
  split; [vm_compute; reflexivity|]. split; [reflexivity|]. split; [reflexivity|].
  split; [eapply ext_step; [reflexivity|reflexivity|constructor]|]. split; [reflexivity|].
  exists 12%nat. split; [constructor|]. split; [reflexivity|]. intros o' m' X _. auto.
Qed.
(** Errors: other parameters (115), another result (117), a method that is redefined before it is declared (119), a second body (1), no body (129). *)
Example C81_errors :
  (forall ls e, Module_ (demo false) here shown 9 start [dl false 13 7 1 6; dl false 14 7 1 2] = Ok (ls, e) -> e = [115]) /\
  (forall ls e, Module_ (demo false) here shown 9 start [dl false 14 7 1 2; dl false 13 7 1 6] = Ok (ls, e) -> e = [119]) /\
  (forall ls e, Module_ (demo false) here shown 9 start [dl false 13 7 1 6; dl false 13 7 1 6] = Ok (ls, e) -> In 1 e) /\
  (forall ls e, Module_ (demo false) here shown 9 start [dl true 13 7 1 6] = Ok (ls, e) -> e = [129]) /\
  (forall ls e, Module_ (demo false) here shown 9 start [dl false 13 7 1 6; dl false 14 7 0 6] = Ok (ls, e) -> e = [109]) /\
  (forall ls e, Module_ (demo false) here shown 9 start [dl false 14 1 1 6] = Ok (ls, e) -> e = [1; 119]).
Proof. repeat split; intros ls e H; vm_compute in H; inversion H; try reflexivity. left. reflexivity. Qed.
(** The rules hold of a module with a redefinition. *)
Example C81_rules_example : rules (demo false) here shown start [dl false 13 7 1 6; dl false 14 7 1 7].
Proof.
  assert (X11 : forall b, extends (demo false) 11 b -> b = 11%nat).
  { intros b X. inversion X; subst; auto. discriminate. }
  assert (X12 : forall b, extends (demo false) 12 b -> b <> 12%nat -> b = 11%nat).
  { intros b X N. inversion X; subst; [congruence|]. inversion H0; subst. auto. }
  assert (R : forall t u, receives (demo false) mVar t u -> sbase (str (demo false) t) = Some u).
  { intros t u (_ & [(H & _)|(_ & _ & H)]); [discriminate|auto]. }
  intros a d b Q. destruct a as [|d1 [|d2 [|d3 a]]]; inversion Q; subst; clear Q.
  - split; auto. exists 11%nat. split; [|split; [|split; [|split]]]; auto.
    + split; auto.
    + intros b X N. rewrite (X11 _ X) in N. congruence.
  - split; auto. exists 12%nat. split; [|split; [|split; [|split]]]; auto.
    + split; auto.
    + intros d' [<-|[]] [H _]. apply R in H. discriminate.
    + intros b X N. rewrite (X12 _ X N). split; [cbn; discriminate|]. split; [cbn; discriminate|]. split; [|intros d' []].
      intros d' [<-|[]] _. split; [|intros (_ & H & _); discriminate].
      split; auto. split; auto. cbn. constructor; auto; [|constructor]. apply same_proc; try reflexivity. cbn. apply same_params_refl.
Qed.

(** ** Findings *)
(** The claim that every procedure has a body is false: a forward declaration that redefines an inherited procedure needs no body. *)
Theorem C81_body_refuted :
  ~ (forall E mno tvis fuel ls0 ds ls t n m, table E -> at_start E mno ls0 -> consistent E ls0 ->
       Module_ E mno tvis fuel ls0 ds = Ok (ls, []) -> mno t = 0 -> own ls (t, n) = Some (MProc m) -> mbody m = true).
Proof.
  intros H. destruct start_ok as (S1 & S2 & _).
  assert (mbody (mkm 1 mVar [120] 14 [par mVar 7] 5 false true) = true) as X; [|discriminate].
  eapply (H (demo false) here shown 9%nat start [dl false 13 7 1 6; dl true 14 7 1 7] _ 12%nat 7 _ (demo_table false) S1 S2);
    [vm_compute; reflexivity|reflexivity|vm_compute; reflexivity].
Qed.
(** The claim that a name denotes one member in a chain of extensions, or a procedure and its redefinitions, is false: a procedure of a base
    type may be declared with the name of a field of an extension. *)
Theorem C81_names_refuted :
  ~ (forall E mno tvis fuel ls0 ds ls D B n m, table E -> at_start E mno ls0 -> consistent E ls0 ->
       Module_ E mno tvis fuel ls0 ds = Ok (ls, []) -> extends E D B -> own ls (B, n) = Some (MProc m) -> own ls (D, n) <> Some MField).
Proof.
  intros H. destruct start_ok as (S1 & S2 & _).
  eapply (H (demo false) here shown 9%nat start [dl false 13 2 1 6] _ 12%nat 11%nat 2 _ (demo_table false) S1 S2);
    [vm_compute; reflexivity|eapply ext_step; [reflexivity|reflexivity|constructor]|vm_compute; reflexivity|reflexivity].
Qed.

Print Assumptions C81_consistent.
Print Assumptions C81_call.
Print Assumptions C81_body_partial.
Print Assumptions C81_one_body.
Print Assumptions C81_accepts.
Print Assumptions C81_body_refuted.
Print Assumptions C81_names_refuted.
