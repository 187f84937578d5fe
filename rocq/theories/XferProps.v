(** C68: assignments and parameters transfer whole values. *)
From Verif Require Import Base OpsProps AsgModel AsgSpec AsgProps XferModel XferSpec XferProofs.

Section WithTable.
Variable E : env.
Notation T t := (str E t).
Hypothesis TB : table E.
Hypothesis SZ : sizes E.
Variable named : tid -> bool.

Lemma extends_size : forall d b, extends E d b -> ssize (T b) <= ssize (T d).
Proof. intros d b H. induction H; [lia|]. pose proof (z_ext E SZ _ _ H H0). lia. Qed.
Lemma record_extends : forall fuel x y, scomp (T x) = Record_ -> assign_record E fuel x y = Ok [] -> extends E y x.
Proof.
  intros fuel x y R H. unfold assign_record in H. destruct (Nat.eqb x y) eqn:Q; b2p; [subst; constructor|].
  destruct (is_comp (fcomp E y) Record_) eqn:C; [|discriminate]. b2p.
  apply bind_inv in H as (r & W & H). destruct r as [r|]; [|discriminate].
  destruct (baseof E y) as [b|] eqn:B; [|destruct fuel; discriminate]. unfold baseof in B.
  eapply ext_step; eauto. eapply walk_some; eauto. eapply (t_rbase E TB); eauto.
Qed.
Lemma comp_false : forall t c, scomp (T t) <> c -> is_comp (fcomp E t) c = false.
Proof. intros t c H. destruct (is_comp (fcomp E t) c) eqn:Q; auto. b2p. contradiction. Qed.
Lemma comp_true : forall t c, scomp (T t) = c -> is_comp (fcomp E t) c = true.
Proof. intros t c H. apply is_comp_iff. auto. Qed.
Lemma form_false : forall t c, sform (T t) <> c -> is_form (fform E t) c = false.
Proof. intros t c H. destruct (is_form (fform E t) c) eqn:Q; auto. b2p. contradiction. Qed.
Lemma string_false : forall t, scomp (T t) <> Basic -> Nat.eqb t (stringtyp E) = false.
Proof. intros t H. apply Nat.eqb_neq. intros ->. apply H. apply (t_stringc E TB). Qed.

(** What an accepted assignment is, in the cases of arrays and records. *)
Lemma accepted_array : forall fuel x yn n', scomp (T x) = Array -> good_node E yn ->
  CheckAssign E fuel x yn = Ok ([], n') ->
  nlen n' = Z.of_nat (length (nstr n')) + 1 /\
  (scomp (T (ntyp n')) = Array /\ ssize (T (ntyp n')) <= ssize (T x) \/
   sbase (T x) = Some (chartyp E) /\ ntyp n' = stringtyp E /\ nlen n' <= ssize (T x)).
Proof.
  intros fuel x yn n' A (GS & GL & GC & GH) H. unfold CheckAssign in H.
  apply bind_inv in H as (e & H & H'). injection H' as H' HN. apply app_eq_nil in H' as [_ ->].
  unfold fform in H at 1. rewrite (form_comp E TB x ltac:(congruence)) in H.
  unfold fcomp in H at 1. rewrite A in H. rewrite HN in H.
  split.
  { rewrite <- HN. destruct (_ && _ && _ && _); [|exact GL]. cbn [nlen nstr CharToString].
    destruct (nch yn =? 0); reflexivity. }
  unfold assign_array in H. clear HN.
  destruct (Nat.eqb x (ntyp n')) eqn:Q; b2p; [left; rewrite <- Q; split; auto; lia|].
  destruct (is_comp (fcomp E (ntyp n')) Array && samebase E (ntyp n') x && (sn (T (ntyp n')) <=? sn (T x))) eqn:Q1; b2p.
  - left. split; auto. unfold samebase, baseof in *.
    destruct (t_abase E TB x ltac:(auto)) as [b B]. destruct (t_abase E TB (ntyp n') ltac:(auto)) as [b' B'].
    rewrite B, B' in *. b2p. subst b'.
    rewrite (z_array E SZ _ _ A B), (z_array E SZ (ntyp n') b) by auto. pose proof (z_pos E SZ b). nia.
  - destruct (is_comp (fcomp E (ntyp n')) DynArr && samebase E (ntyp n') x); [discriminate|].
    destruct (isbase E x (chartyp E)) eqn:IB; [|discriminate].
    destruct (is_form (fform E (ntyp n')) FString) eqn:FS; [|discriminate]. b2p.
    destruct (nlen n' >? sn (T x)) eqn:LN; [discriminate|]. right.
    unfold isbase, baseof in IB. destruct (sbase (T x)) as [b|] eqn:B; [|discriminate]. b2p. subst b.
    split; auto. split; [apply (z_string E SZ); auto|].
    rewrite (z_array E SZ _ _ A B), (z_char E SZ). rewrite Z.gtb_ltb in LN. b2p. lia.
Qed.
Lemma accepted_record : forall fuel x yn n', scomp (T x) = Record_ ->
  CheckAssign E fuel x yn = Ok ([], n') -> n' = yn /\ extends E (ntyp yn) x.
Proof.
  intros fuel x yn n' R H. unfold CheckAssign in H.
  apply bind_inv in H as (e & H & H'). injection H' as H' HN. apply app_eq_nil in H' as [_ ->].
  unfold fform in H at 1. rewrite (form_comp E TB x ltac:(congruence)) in H.
  unfold fcomp in H at 1. rewrite R in H. split; [|eapply record_extends; eauto].
  rewrite <- HN. unfold fcomp. rewrite R. rewrite andb_false_r. reflexivity.
Qed.

(** ** Assignment: an accepted assignment [x := y] compiles and stores exactly the value of [y]:
    all of it when the types are the same, the elements of a shorter array, the characters of a
    string with the final 0X, the part of a record that [x] has; no other byte changes.  When [x] is
    a record whose dynamic type is an extension of its static type the statement traps instead. *)
Theorem C68_assignment : forall fuel x yn n' yd ev m dst tag src,
  good_node E yn -> variable E (dtyp x) ->
  scomp (T (dtyp x)) = Array \/ scomp (T (dtyp x)) = Record_ \/ ntyp yn = dtyp x ->
  (forall t d, x <> DGuard t d) ->
  CheckAssign E fuel (dtyp x) yn = Ok ([], n') ->
  ev m = Ok (dst, tag, m) ->
  inside m dst (ssize (T (dtyp x))) = true -> inside m src (amount E (dtyp x) n') = true ->
  (sform (T (ntyp n')) = FString -> load m src (amount E (dtyp x) n') = Ok (nstr n' ++ [0])) ->
  overlap dst src (amount E (dtyp x) n') = false \/ scomp (T (dtyp x)) <> Array /\ dst = src ->
  exists c, gen_assign E named true x {| rnode := n'; rdsg := yd |} = Ok c /\ compiles c = true /\
    (polymorphic E x -> named (dtyp x) = true -> tag <> dtyp x -> run_assign E ev src c m = Trap (-6)) /\
    ((polymorphic E x -> tag = dtyp x) ->
     exists m', run_assign E ev src c m = Ok m' /\ length m' = length m /\
                copied m m' dst src (amount E (dtyp x) n')).
Proof.
  intros fuel x yn n' yd ev m dst tag src G V TR NG H EV ID IS LIT OV.
  destruct (scomp (T (dtyp x))) eqn:C.
  - (* basic types *)
    assert (TE : ntyp yn = dtyp x) by (destruct TR as [|[|]]; congruence).
    assert (n' = yn).
    { unfold CheckAssign in H. apply bind_inv in H as (e & H & H'). injection H' as _ HN. rewrite <- HN.
      unfold fcomp. rewrite C. change (is_comp Basic Array) with false. rewrite andb_false_r. reflexivity. }
    subst n'. unfold gen_assign. cbn [rnode]. rewrite !(comp_false (dtyp x)) by congruence. cbn [andb].
    unfold eguard. rewrite !(comp_false (dtyp x)) by congruence.
    eexists. split; [reflexivity|]. split; [cbn; apply Nat.eqb_refl|]. split.
    { intros [P _]. congruence. }
    intros _. cbn [run_assign]. rewrite EV. cbn [bind fst].
    assert (AM : amount E (dtyp x) yn = ssize (T (dtyp x))).
    { unfold amount. rewrite TE. fold (fform E (dtyp x)). rewrite form_false by (unfold variable in V; intros Q; rewrite Q in V; exact V). lia. }
    rewrite AM in *. apply cassign_ok; auto. destruct OV as [OV|[_ OV]]; auto.
  - (* arrays *)
    destruct (accepted_array _ _ _ _ C G H) as (LN & CASE).
    destruct OV as [OV|[OV _]]; [|congruence].
    assert (NP : polymorphic E x -> False) by (intros [P _]; congruence).
    destruct CASE as [[CA LE]|(B & NT & LE)].
    + assert (FN : sform (T (ntyp n')) <> FString) by (rewrite (form_comp E TB) by congruence; discriminate).
      unfold gen_assign. cbn [rnode]. rewrite (form_false _ _ FN). rewrite andb_false_r. cbn [andb].
      rewrite (comp_true _ _ C). rewrite string_false by congruence.
      rewrite (comp_false (ntyp n') DynArr) by congruence. rewrite (comp_true _ _ CA).
      rewrite (proj2 (Z.leb_le _ _) LE). cbn [andb].
      eexists. split; [reflexivity|]. split; [reflexivity|]. split; [intros P; destruct (NP P)|]. intros _.
      assert (AM : amount E (dtyp x) n' = ssize (T (ntyp n'))).
      { unfold amount. fold (fform E (ntyp n')). rewrite form_false by auto. lia. }
      rewrite AM in *. cbn [run_assign]. rewrite EV. cbn [bind fst].
      apply memcpy_ok; auto. eapply inside_sub; eauto. pose proof (z_pos E SZ (ntyp n')). lia.
    + assert (FS : sform (T (ntyp n')) = FString) by (rewrite NT; apply (t_string E TB)).
      assert (AM : amount E (dtyp x) n' = nlen n').
      { unfold amount. rewrite FS. change (is_form FString FString) with true. cbv iota. lia. }
      rewrite AM in *.
      assert (FT : is_form (fform E (ntyp n')) FString = true) by (apply is_form_iff; auto).
      assert (IB : isbase E (dtyp x) (chartyp E) = true) by (unfold isbase, baseof; rewrite B; apply Nat.eqb_refl).
      unfold gen_assign. cbn [rnode]. rewrite FT, IB, (comp_true _ _ C). cbn [andb].
      assert (ID' : inside m dst (nlen n') = true) by (eapply inside_sub; eauto; lia).
      destruct (nlen n' =? 1) eqn:L1; b2p.
      * eexists. split; [reflexivity|]. split; [reflexivity|]. split; [intros P; destruct (NP P)|]. intros _.
        cbn [run_assign]. rewrite EV. cbn [bind fst].
        destruct (store_ok m dst [0]) as (m' & ST & LM & SB); [cbn [length]; change (Z.of_nat 1) with 1; rewrite <- L1; auto|].
        exists m'. split; auto. split; auto. intros b i. rewrite SB. cbn [length]. change (Z.of_nat 1) with 1. rewrite L1.
        destruct (Nat.eqb b (fst dst) && (snd dst <=? i) && (i <? snd dst + 1)) eqn:Q; auto. b2p.
        replace (i - snd dst) with 0 by lia. change (Z.to_nat 0) with O. cbn [nth_error].
        specialize (LIT FS). apply load_byte in LIT as [_ LB]. specialize (LB 0 ltac:(lia)). rewrite <- LB.
        assert (nstr n' = []) as -> by (destruct (nstr n'); auto; cbn [length] in LN; lia). reflexivity.
      * rewrite NT, Nat.eqb_refl.
        eexists. split; [reflexivity|]. split; [reflexivity|]. split; [intros P; destruct (NP P)|]. intros _.
        cbn [run_assign]. rewrite EV. cbn [bind fst]. apply memcpy_ok; auto.
  - (* open arrays are not assigned *)
    exfalso. unfold CheckAssign in H. apply bind_inv in H as (e & H & H'). injection H' as H' _. apply app_eq_nil in H' as [_ ->].
    unfold fform in H at 1. rewrite (form_comp E TB (dtyp x) ltac:(congruence)) in H.
    unfold fcomp in H at 1. rewrite C in H. discriminate.
  - (* records *)
    destruct (accepted_record _ _ _ _ C H) as (-> & EX).
    pose proof (extends_size _ _ EX) as SE.
    assert (RY : scomp (T (ntyp yn)) = Record_) by (eapply extends_record; eauto).
    assert (AM : amount E (dtyp x) yn = ssize (T (dtyp x))).
    { unfold amount. fold (fform E (ntyp yn)). rewrite form_false by (rewrite (form_comp E TB) by congruence; discriminate). lia. }
    rewrite AM in *.
    assert (OV' : overlap dst src (ssize (T (dtyp x))) = false \/ dst = src) by (destruct OV as [|[_ ]]; auto).
    unfold gen_assign. cbn [rnode]. rewrite (comp_false (dtyp x) Array) by congruence. cbn [andb].
    rewrite !(comp_true (dtyp x) Record_) by auto. cbn [andb].
    assert (RT : (if negb (Nat.eqb (dtyp x) (ntyp yn)) then dtyp x else ntyp yn) = dtyp x).
    { destruct (Nat.eqb (dtyp x) (ntyp yn)) eqn:Q; cbn [negb]; b2p; auto. }
    rewrite RT. unfold eguard. rewrite (comp_true (dtyp x) Record_) by auto.
    assert (Z0 : (match x with DGuard _ d => d | _ => x end) = x) by (destruct x; auto; exfalso; eapply NG; eauto).
    rewrite Z0.
    destruct (named (dtyp x) && ((dclass x =? Nderef) || (dclass x =? Nvarpar))) eqn:PO.
    + eexists. split; [reflexivity|]. split; [cbn; apply Nat.eqb_refl|].
      cbn [run_assign]. rewrite EV. cbn [bind fst snd].
      apply andb_true_iff in PO as [PN PC]. split.
      * intros _ _ NE. apply Nat.eqb_neq in NE. rewrite NE. reflexivity.
      * intros TG. assert (P : polymorphic E x).
        { split; auto. apply orb_true_iff in PC as [PC|PC]; b2p; auto. }
        rewrite (TG P), Nat.eqb_refl. rewrite EV. cbn [bind fst]. apply cassign_ok; auto.
    + eexists. split; [reflexivity|]. split; [cbn; apply Nat.eqb_refl|].
      cbn [run_assign]. rewrite EV. cbn [bind fst]. split.
      * intros [_ P] N. rewrite N in PO. cbn [andb] in PO. apply orb_false_iff in PO as [P1 P2]. b2p. destruct P; contradiction.
      * intros _. apply cassign_ok; auto.
Qed.

Lemma accepted_open : forall k ap fp, scomp (T (ptyp fp)) = DynArr -> good_node E ap -> nclass ap < Nconst ->
  Param E k ap fp = Ok [] -> DynArrParCheck E k (ptyp fp) (ntyp ap) (pmode fp =? mVarPar) = Ok [].
Proof.
  intros k ap fp D G NC H. unfold Param in H. unfold fform in H at 1.
  rewrite (form_comp E TB (ptyp fp) ltac:(congruence)) in H.
  change (is_form FComp FUndef) with false in H. cbv iota in H. rewrite (comp_true _ _ D) in H.
  destruct (pmode fp =? mVarPar).
  - apply bind_inv in H as (e3 & H & H'). injection H' as H'.
    apply app_eq_nil in H' as [_ H']. apply app_eq_nil in H' as [_ ->]. exact H.
  - destruct (nclass ap =? Nconst) eqn:Q2; b2p; [lia|]. cbn [andb] in H.
    apply bind_inv in H as (b & _ & H).
    assert (FN : sform (T (ntyp ap)) <> FString) by (intros FS; apply G in FS; lia).
    rewrite (form_false _ _ FN) in H. cbn [andb] in H.
    assert (GE : (nclass ap >=? Nconst) = false) by (rewrite Z.geb_leb; apply Z.leb_gt; lia).
    rewrite GE in H. exact H.
Qed.
(** ** Lengths of open array parameters: every open dimension of the parameter gets the length of
    the actual, at any index depth of the actual; an ARRAY OF BYTE gets the number of bytes. *)
Theorem C68_lengths : forall fuel k a fp ds e,
  scomp (T (ptyp fp)) = DynArr -> good_node E (anode a) -> nclass (anode a) < Nconst -> ntyp (anode a) = dtyp (adsg a) ->
  shaped E (adsg a) ds e -> Param E k (anode a) fp = Ok [] -> (k + length ds < fuel)%nat ->
  exists ls, pass_lens E fuel a fp = Ok ls /\ lengths E (ptyp fp) ds e ls.
Proof.
  intros fuel k a fp ds e D G NC NT SH H F. unfold pass_lens. rewrite (comp_true _ _ D).
  destruct (nclass (anode a) =? Nconst) eqn:Q; b2p; [lia|].
  destruct (shaped_extent E _ _ _ SH) as [lens X].
  pose proof (accepted_open _ _ _ D G NC H) as DC. rewrite NT in *.
  eapply len_args_ok; eauto. apply (z_bytetyp E SZ).
Qed.

Lemma load_fresh : forall m bs, load (m ++ [bs]) (length m, 0) (Z.of_nat (length bs)) = Ok bs.
Proof.
  intros m bs. unfold load, inside. cbn [fst snd].
  rewrite nth_error_app2, Nat.sub_diag by lia. cbn [nth_error].
  destruct ((0 <=? 0) && (0 <=? Z.of_nat (length bs)) && (0 + Z.of_nat (length bs) <=? Z.of_nat (length bs))) eqn:Q.
  - rewrite app_nth2, Nat.sub_diag by lia. cbn [nth]. change (Z.to_nat 0) with O. cbn [skipn].
    rewrite Nat2Z.id, firstn_all. reflexivity.
  - exfalso. apply andb_false_iff in Q as [Q|Q]; [apply andb_false_iff in Q as [Q|Q]|]; apply Z.leb_gt in Q; lia.
Qed.
(** Making the copy, once its size is known to be the size of the actual. *)
Lemma pass_copies : forall fuel m a fp ls n, pmode fp <> mVarPar ->
  pass_lens E fuel a fp = Ok ls -> copy_size E fuel fp ls = Ok n -> inside m (aloc a) n = true ->
  exists m' b bs, pass E fuel m a fp = Ok (m', b) /\ plens b = ls /\ load m (aloc a) n = Ok bs /\
    m' = m ++ [bs] /\ ploc b = (length m, 0) /\ load m' (ploc b) n = Ok bs.
Proof.
  intros fuel m a fp ls n M PL CS I. unfold pass. rewrite PL. cbn [bind].
  apply Z.eqb_neq in M. rewrite M, CS. cbn [bind]. destruct (load_ok _ _ _ I) as [bs L]. rewrite L. cbn [bind].
  eexists _, _, bs. split; [reflexivity|]. cbn [plens ploc]. repeat split; auto.
  destruct (load_byte _ _ _ _ L) as [LL _]. rewrite <- LL. apply load_fresh.
Qed.

(** ** Value parameters: the procedure gets a copy of all bytes of the actual, in an object that did not
    exist before; the objects of the caller keep their contents. *)
Theorem C68_open_value_parameters : forall fuel k m a fp ds e,
  pmode fp <> mVarPar -> scomp (T (ptyp fp)) = DynArr -> good_node E (anode a) -> nclass (anode a) < Nconst ->
  ntyp (anode a) = dtyp (adsg a) -> shaped E (adsg a) ds e -> Param E k (anode a) fp = Ok [] ->
  inside m (aloc a) (total E ds e) = true -> (k + length ds < fuel)%nat ->
  exists m' b bs, pass E fuel m a fp = Ok (m', b) /\ lengths E (ptyp fp) ds e (plens b) /\
    load m (aloc a) (total E ds e) = Ok bs /\
    m' = m ++ [bs] /\ ploc b = (length m, 0) /\ load m' (ploc b) (total E ds e) = Ok bs.
Proof.
  intros fuel k m a fp ds e M D G NC NT SH H I F.
  destruct (C68_lengths fuel k a fp ds e D G NC NT SH H F) as (ls & PL & LS).
  destruct (shaped_extent E _ _ _ SH) as [lens X].
  pose proof (accepted_open _ _ _ D G NC H) as DC. apply Z.eqb_neq in M. rewrite M in DC. apply Z.eqb_neq in M.
  rewrite NT in DC.
  destruct (copy_ok E TB SZ k fuel _ _ _ _ _ _ X D DC LS ltac:(lia)) as (el & n & IN & -> & EQ).
  assert (CS : copy_size E fuel fp ls = Ok (total E ds e)).
  { unfold copy_size. rewrite (comp_true _ _ D), IN. cbn [bind]. rewrite firstn_all, EQ. reflexivity. }
  destruct (pass_copies fuel m a fp ls _ M PL CS I) as (m' & b & bs & P1 & P2 & P3 & P4 & P5 & P6).
  exists m', b, bs. repeat split; auto. rewrite P2. exact LS.
Qed.
(** A string constant, or a character constant used as a string, is passed with its length. *)
Theorem C68_string_parameters : forall fuel m a fp, pmode fp <> mVarPar ->
  scomp (T (ptyp fp)) = DynArr -> sbase (T (ptyp fp)) = Some (chartyp E) -> good_node E (anode a) ->
  nclass (anode a) = Nconst -> load m (aloc a) (nlen (anode a)) = Ok (nstr (anode a) ++ [0]) -> (2 <= fuel)%nat ->
  exists b, pass E fuel m a fp = Ok (m ++ [nstr (anode a) ++ [0]], b) /\
    plens b = [Z.of_nat (length (nstr (anode a))) + 1] /\ ploc b = (length m, 0).
Proof.
  intros fuel m a fp M D B (GS & GL & _) C L F. unfold pass, pass_lens. rewrite (comp_true _ _ D), C, Z.eqb_refl.
  cbn [bind]. apply Z.eqb_neq in M. rewrite M. unfold copy_size. rewrite (comp_true _ _ D).
  destruct fuel as [|[|fuel]]; try lia. cbn [innermost]. rewrite (comp_true _ _ D). unfold baseof. rewrite B. cbn [deref bind].
  rewrite (comp_false (chartyp E) DynArr).
  2:{ intros Q. pose proof (form_comp E TB (chartyp E) ltac:(congruence)). pose proof (t_char E TB). congruence. }
  cbn [bind firstn prod fold_right]. rewrite (z_char E SZ).
  replace (nlen (anode a) * 1 * 1) with (nlen (anode a)) by lia. rewrite L. cbn [bind].
  eexists. split; [reflexivity|]. cbn [plens ploc]. rewrite GL. auto.
Qed.
(** Parameters of other types, when the actual has the type of the parameter. *)
Theorem C68_value_parameters : forall fuel m a fp, pmode fp <> mVarPar ->
  scomp (T (ptyp fp)) <> DynArr -> ntyp (anode a) = ptyp fp ->
  inside m (aloc a) (ssize (T (ptyp fp))) = true ->
  arg_compiles E a fp = true /\
  exists m' b bs, pass E fuel m a fp = Ok (m', b) /\ load m (aloc a) (ssize (T (ptyp fp))) = Ok bs /\
    m' = m ++ [bs] /\ ploc b = (length m, 0) /\ load m' (ploc b) (ssize (T (ptyp fp))) = Ok bs.
Proof.
  intros fuel m a fp M D NT I. split.
  { unfold arg_compiles. destruct (_ && _); auto. rewrite NT. apply Nat.eqb_refl. }
  assert (PL : pass_lens E fuel a fp = Ok []) by (unfold pass_lens; rewrite (comp_false _ _ D); reflexivity).
  assert (CS : copy_size E fuel fp [] = Ok (ssize (T (ptyp fp)))) by (unfold copy_size; rewrite (comp_false _ _ D); reflexivity).
  destruct (pass_copies fuel m a fp [] _ M PL CS I) as (m' & b & bs & P1 & _ & P3 & P4 & P5 & P6).
  exists m', b, bs. auto.
Qed.
(** What the procedure stores in its copy is not seen by the caller, and the other way round. *)
Theorem C68_copies_are_private : forall m bs p new m', store (m ++ [bs]) p new = Ok m' ->
  (fst p = length m -> forall b i, (b < length m)%nat -> byte m' b i = byte m b i) /\
  ((fst p < length m)%nat -> forall i, byte m' (length m) i = byte (m ++ [bs]) (length m) i).
Proof.
  intros m bs p new m' H.
  assert (I : inside (m ++ [bs]) p (Z.of_nat (length new)) = true) by (unfold store in H; destruct (inside _ _ _); congruence).
  destruct (store_ok _ _ _ I) as (m2 & ST & _ & SB). rewrite ST in H. injection H as ->. split.
  - intros P b i B. rewrite SB. destruct (Nat.eqb b (fst p)) eqn:Q; b2p; [lia|]. cbn [andb].
    unfold byte. rewrite nth_error_app1 by lia. reflexivity.
  - intros P i. rewrite SB. destruct (Nat.eqb (length m) (fst p)) eqn:Q; b2p; [lia|]. reflexivity.
Qed.

(** ** VAR parameters denote the actual variable itself: nothing is copied. *)
Theorem C68_var_parameters : forall fuel k m a fp ds e, pmode fp = mVarPar ->
  good_node E (anode a) -> nclass (anode a) < Nconst -> ntyp (anode a) = dtyp (adsg a) ->
  shaped E (adsg a) ds e -> Param E k (anode a) fp = Ok [] -> (k + length ds < fuel)%nat ->
  exists b, pass E fuel m a fp = Ok (m, b) /\ ploc b = aloc a /\
    lengths E (ptyp fp) ds e (plens b) /\
    (scomp (T (ptyp fp)) = Record_ -> ptag b = Some (TypeOf (adsg a))).
Proof.
  intros fuel k m a fp ds e M G NC NT SH H F. unfold pass. rewrite (proj2 (Z.eqb_eq _ _) M).
  destruct (is_comp (fcomp E (ptyp fp)) DynArr) eqn:D.
  - b2p. destruct (C68_lengths fuel k a fp ds e D G NC NT SH H F) as (ls & -> & LS). cbn [bind].
    eexists. split; [reflexivity|]. cbn [ploc plens ptag]. repeat split; auto.
    intros R. unfold fcomp in D. congruence.
  - unfold pass_lens. rewrite D. cbn [bind]. eexists. split; [reflexivity|]. cbn [ploc plens ptag]. repeat split.
    + apply ln_end. intros Q. apply is_comp_iff in Q. fold (fcomp E (ptyp fp)) in Q. congruence.
    + intros R. unfold pass_tag. rewrite (comp_true _ _ R), (proj2 (Z.eqb_eq _ _) M). reflexivity.
Qed.
(** In the procedure an open array parameter has the lengths of the actual, so that it can be passed
    on in turn. *)
Theorem C68_parameters_keep_their_shape : forall fp b ds e at_ lens v k,
  scomp (T (ptyp fp)) = DynArr -> extent E at_ lens ds e -> DynArrParCheck E k (ptyp fp) at_ v = Ok [] ->
  ~ elem E (ptyp fp) (bytetyp E) -> (forall t, sform (T t) = FByte -> t = bytetyp E) ->
  lengths E (ptyp fp) ds e (plens b) -> exists e', shaped E (param_dsg fp b) ds e'.
Proof.
  intros fp b ds e at_ lens v k D X H NB BY L.
  assert (GOAL : exists e', extent E (ptyp fp) (plens b) ds e').
  2:{ destruct GOAL as [e' G]. exists e'. constructor. exact G. }
  revert D X H NB L. generalize (ptyp fp) (plens b). revert at_ lens ds. clear b fp.
  induction k as [|k IH]; intros at_ lens ds ft ls D X H NB L; [discriminate|].
  destruct (dyncheck_cases E TB _ _ _ _ H D) as (fb & FB & [[_ ->]|(CA & ab & AB & CASE)]).
  { exfalso. apply NB. constructor; auto. }
  assert (exists l ds', ds = l :: ds' /\ 0 <= l) as (l & ds' & -> & LP).
  { inversion X; subst; eauto. - eexists _, _. split; [reflexivity|]. apply (z_n E SZ); auto. - destruct CA; congruence. }
  destruct (extent_base E _ _ _ _ _ _ X AB) as (lens' & X' & _).
  inversion L; subst; try congruence.
  { exfalso. apply NB. apply BY in H2. subst b. constructor; auto. }
  replace b with fb in * by congruence.
  destruct CASE as [[DF HF]|CASE].
  - destruct (IH ab lens' ds' fb ls0 DF X' HF) as [e' G]; auto.
    { intros EL. apply NB. eapply el_deep; eauto. }
    exists e'. eapply ex_open; eauto.
  - assert (ND : scomp (T fb) <> DynArr) by (destruct CASE as [[? _]|[? _]]; auto).
    match goal with Q : lengths E fb ds' e ls0 |- _ => inversion Q; subst; try congruence end.
    destruct CASE as [[_ ->]|(_ & _ & P1 & P2)].
    + pose proof (extent_nodyn E _ _ _ _ X' ND). subst lens'. exists e. eapply ex_open; eauto.
    + assert (ds' = []) as ->.
      { inversion X'; subst; auto; pose proof (form_comp E TB ab ltac:(congruence)); congruence. }
      exists fb. eapply ex_open; eauto. apply ex_end; intros Q; pose proof (form_comp E TB fb ltac:(congruence)); congruence.
Qed.

(** A record passed on through any number of VAR parameters is the same variable and carries the
    descriptor it had at the start. *)
Fixpoint pass_on (fuel : nat) (m : mem) (a : actual) (fps : list param) : res (mem * actual) :=
  match fps with
  | [] => Ok (m, a)
  | fp :: r =>
      let* (m', b) := pass E fuel m a fp in
      pass_on fuel m' {| anode := anode a; adsg := param_dsg fp b; aloc := ploc b |} r
  end.
Theorem C68_records_passed_on : forall fps fuel m a,
  Forall (fun fp => pmode fp = mVarPar /\ scomp (T (ptyp fp)) = Record_) fps ->
  exists a', pass_on fuel m a fps = Ok (m, a') /\ aloc a' = aloc a /\ TypeOf (adsg a') = TypeOf (adsg a).
Proof.
  induction fps as [|fp fps IH]; intros fuel m a H; cbn [pass_on]; [eauto|].
  inversion H; subst. destruct H2 as [M R]. unfold pass, pass_lens.
  rewrite (comp_false (ptyp fp) DynArr) by congruence. cbn [bind]. rewrite (proj2 (Z.eqb_eq _ _) M). cbn [bind].
  destruct (IH fuel m {| anode := anode a; adsg := param_dsg fp {| ploc := aloc a; plens := []; ptag := pass_tag E a fp |}; aloc := aloc a |} H3)
    as (a' & P & L & TT).
  exists a'. split; [exact P|]. split; [exact L|]. rewrite TT. cbn [adsg param_dsg ptag].
  unfold pass_tag. rewrite (comp_true _ _ R), (proj2 (Z.eqb_eq _ _) M). cbn [andb].
  unfold param_dsg. rewrite M. reflexivity.
Qed.
End WithTable.

(** ** Where the claims fail *)

(** A record with an extended type is accepted for a value parameter, but no cast is written: the C
    compiler rejects the call. *)
Theorem C68_extended_value_records_refuted : forall E a fp, pmode fp <> mVarPar ->
  scomp (str E (ptyp fp)) = Record_ -> ntyp (anode a) <> ptyp fp -> arg_compiles E a fp = false.
Proof.
  intros E a fp M R NT. unfold arg_compiles, fcomp. rewrite R. apply Z.eqb_neq in M. rewrite M. cbn.
  apply Nat.eqb_neq. congruence.
Qed.
(** A shorter array or string is accepted for a value parameter of a fixed array type, but the
    procedure copies the size of the parameter: it reads beyond the end of the actual. *)
Theorem C68_short_value_arrays_refuted : forall E fuel m a fp b, pmode fp <> mVarPar ->
  scomp (str E (ptyp fp)) = Array -> nth_error m (fst (aloc a)) = Some b ->
  Z.of_nat (length b) < snd (aloc a) + ssize (str E (ptyp fp)) -> pass E fuel m a fp = UB.
Proof.
  intros E fuel m a fp b M A B L. unfold pass, pass_lens, fcomp. rewrite A. cbn [is_comp bind].
  apply Z.eqb_neq in M. rewrite M. unfold copy_size, fcomp. rewrite A. cbn [is_comp bind].
  unfold load, inside. rewrite B.
  destruct ((0 <=? snd (aloc a)) && (0 <=? ssize (str E (ptyp fp))) && (snd (aloc a) + ssize (str E (ptyp fp)) <=? Z.of_nat (length b))) eqn:Q; auto.
  b2p. lia.
Qed.
(** The assignment r(T) := v to a VAR parameter r of another type T0: the dynamic type is compared with
    T0 and the C types of the two sides differ. *)
Theorem C68_guarded_assignment_refuted : forall E named t t0 lens tag y, scomp (str E t) = Record_ ->
  named t = true -> t <> t0 ->
  exists c, gen_assign E named true (DGuard t (DObj Nvarpar t0 lens tag)) y = Ok c /\ compiles c = false /\
    exists lt rt, c = ASet (Some t0) lt rt.
Proof.
  intros E named t t0 lens tag y R N D. unfold gen_assign. cbn [dtyp]. unfold eguard. cbn [dtyp dclass].
  unfold fcomp. rewrite R, N. cbn [is_comp andb]. change ((Nvarpar =? Nderef) || (Nvarpar =? Nvarpar)) with true. cbv iota.
  eexists. split; [reflexivity|]. split; [|eauto]. cbn [compiles dtyp].
  apply Nat.eqb_neq. destruct (Nat.eqb t (ntyp (rnode y))) eqn:Q; cbn [negb]; b2p; congruence.
Qed.
(** Assigning an array to itself copies overlapping objects with [memcpy]. *)
Theorem C68_self_assignment_refuted : forall E ev m p n tag, 0 < n -> ev m = Ok (p, tag, m) ->
  run_assign E ev p (AMove n) m = UB.
Proof.
  intros E ev m p n tag N EV. cbn [run_assign]. rewrite EV. cbn [bind fst]. unfold memcpy, overlap.
  rewrite Nat.eqb_refl. rewrite (proj2 (Z.ltb_lt (snd p) (snd p + n))) by lia. rewrite orb_true_r. reflexivity.
Qed.

(** ** Concrete cases *)
Module Case.
Definition S_ f c z n b fs := {| sform := f; scomp := c; ssize := z; sn := n; sbase := b; slink := []; sfields := fs |}.
Definition demo : env := {|
  undftyp := 0; sysptrtyp := 1; chartyp := 2; bytetyp := 3; stringtyp := 4;
  str := fun t => match t with
    | 0 => S_ FUndef Basic 1 0 None []
    | 1 => S_ FPointer Basic 8 0 (Some 0) []
    | 2 => S_ FChar Basic 1 0 None []
    | 3 => S_ FByte Basic 1 0 None []
    | 4 => S_ FString Basic 1 0 None []
    | 5 => S_ FComp Record_ 4 0 None [10]
    | 6 => S_ FComp Record_ 8 0 (Some 5) [10]
    | 7 => S_ FComp Array 4 4 (Some 2) []
    | 8 => S_ FComp Array 2 2 (Some 2) []
    | 9 => S_ FComp DynArr 0 0 (Some 2) []
    | 11 => S_ FComp Array 6 3 (Some 8) []
    | 12 => S_ FComp DynArr 0 0 (Some 9) []
    | 13 => S_ FComp DynArr 0 0 (Some 3) []
    | _ => S_ FInt Basic 4 0 None []
    end%nat |}.
Lemma all_types : forall t, exists u, (u < 15)%nat /\ str demo t = str demo u /\ (t = u \/ (13 < t)%nat /\ u = 14%nat).
Proof.
  intros t. destruct (le_lt_dec 15 t) as [L|L]; [|exists t; auto].
  exists 14%nat. split; [lia|]. split; [|right; lia]. do 15 (destruct t as [|t]; [lia|]). reflexivity.
Qed.
Example table_demo : table demo.
Proof.
  constructor; try reflexivity;
  intros t; destruct (all_types t) as (u & L & -> & _); clear t;
  do 15 (destruct u as [|u]; [cbn;
    try (split; intros; congruence); try (intros; eauto; discriminate);
    try (intros [X|X]; discriminate); try (intros [X|X]; eauto);
    try (intros b R B; inversion B; subst; try discriminate; reflexivity); try lia|]); lia.
Qed.
Lemma pointers : forall t, sform (str demo t) = FPointer -> ssize (str demo t) = 8.
Proof.
  intros t. destruct (all_types t) as (u & L & -> & _).
  do 15 (destruct u as [|u]; [cbn; intros; congruence|]); lia.
Qed.
Example sizes_demo : sizes demo.
Proof.
  constructor; try reflexivity;
  intros t; destruct (all_types t) as (u & L & -> & Q).
  5:{ intros t' P P'. rewrite (pointers t') by auto.
      do 15 (destruct u as [|u]; [cbn in *; congruence|]); lia. }
  all: do 15 (destruct u as [|u]; [cbn; intros; try discriminate; try lia; try congruence;
    try (match goal with H : Some _ = Some ?b |- _ => injection H as <-; cbn; lia end)|]); try lia.
Qed.
Definition nd (c : Z) (t : tid) (s : list Z) : node := {| nclass := c; nval := None; ntyp := t; nreadonly := false; nch := 0; nstr := s;
  nlen := Z.of_nat (length s) + 1; nobj := {| omode := 0; olev := 0; otyp := 0%nat; olink := [] |} |}.
Definition pv (t : tid) := {| pmode := mVar; pname := []; ptyp := t |}.
Definition pr (t : tid) := {| pmode := mVarPar; pname := []; ptyp := t |}.
Definition all_named (t : tid) := true.
(* an ARRAY 4 OF CHAR, an ARRAY 2 OF CHAR, the literal "ab", a T1, the literal "x" and an ARRAY 3, 2 OF CHAR *)
Definition m0 : mem := [[1; 2; 3; 4]; [5; 6]; [97; 98; 0]; [11; 12; 13; 14; 15; 16; 17; 18]; [0]; [1; 2; 3; 4; 5; 6]; [9; 9; 9; 9]].
Definition var (t : tid) := DObj Nvar t [] t.
Definition at_ (b : nat) (tag : tid) (m : mem) : res (loc * tid * mem) := Ok ((b, 0), tag, m).
Definition assign (x : dsg) (b : nat) (tag : tid) (y : node) (src : nat) : res mem :=
  let* r := CheckAssign demo 5 (dtyp x) y in
  let* c := gen_assign demo all_named true x {| rnode := snd r; rdsg := var (ntyp y) |} in
  run_assign demo (at_ b tag) (src, 0) c m0.
Example shorter_array : assign (var 7) 0 7 (nd Nvar 8 []) 1 = Ok (upd m0 0 [5; 6; 3; 4]).
Proof. reflexivity. Qed.
Example string_ : assign (var 7) 0 7 (nd Nconst 4 [97; 98]) 2 = Ok (upd m0 0 [97; 98; 0; 4]).
Proof. reflexivity. Qed.
Example empty_string : assign (var 7) 0 7 (nd Nconst 4 []) 4 = Ok (upd m0 0 [0; 2; 3; 4]).
Proof. reflexivity. Qed.
Example projection : assign (DObj Nvarpar 5 [] 5) 6 5 (nd Nvar 6 []) 3 = Ok (upd m0 6 [11; 12; 13; 14]).
Proof. reflexivity. Qed.
Example other_dynamic_type : assign (DObj Nvarpar 5 [] 6) 6 6 (nd Nvar 6 []) 3 = Trap (-6).
Proof. reflexivity. Qed.
Definition act (n : node) (d : dsg) (b : nat) : actual := {| anode := n; adsg := d; aloc := (b, 0) |}.
Example two_open_dimensions :
  pass demo 9 m0 (act (nd Nvar 11 []) (var 11) 5) (pv 12) = Ok (m0 ++ [[1; 2; 3; 4; 5; 6]], {| ploc := (7%nat, 0); plens := [3; 2]; ptag := None |}).
Proof. reflexivity. Qed.
Example row_of_an_open_array :
  pass demo 9 m0 (act (nd Nindex 9 []) (DIndex 9 (DObj Nvarpar 12 [3; 2] 12)) 5) (pr 13) =
    Ok (m0, {| ploc := (5%nat, 0); plens := [2]; ptag := None |}).
Proof. reflexivity. Qed.
Example record_as_bytes :
  Param demo 9 (nd Nvar 6 []) (pr 13) = Ok [] /\
  pass demo 9 m0 (act (nd Nvar 6 []) (var 6) 3) (pr 13) = Ok (m0, {| ploc := (3%nat, 0); plens := [8]; ptag := None |}).
Proof. split; reflexivity. Qed.
(* accepted by the compiler, but the claims fail *)
Example short_array_parameter :
  Param demo 9 (nd Nvar 8 []) (pv 7) = Ok [] /\ pass demo 9 m0 (act (nd Nvar 8 []) (var 8) 1) (pv 7) = UB /\
  Param demo 9 (nd Nconst 4 [97; 98]) (pv 7) = Ok [] /\ pass demo 9 m0 (act (nd Nconst 4 [97; 98]) (var 4) 2) (pv 7) = UB.
Proof. repeat split; reflexivity. Qed.
Example extended_record_parameter :
  Param demo 9 (nd Nvar 6 []) (pv 5) = Ok [] /\ arg_compiles demo (act (nd Nvar 6 []) (var 6) 3) (pv 5) = false.
Proof. split; reflexivity. Qed.
(* pointers that point to blocks 3 and 7; each evaluation of a[Next()] moves on to the other one *)
Definition next (m : mem) : res (loc * tid * mem) :=
  match m with [] :: r => Ok ((3%nat, 0), 6%nat, [0] :: r) | _ :: r => Ok ((1%nat, 0), 7%nat, [] :: r) | [] => UB end.
End Case.

(** A record assigned to a[Next()]^ : the designator is evaluated twice, so the object whose dynamic
    type was compared is not the one that is changed. *)
Theorem C68_designator_evaluated_twice_refuted :
  exists ev m l1 m1 l2 m2 c m',
    gen_assign Case.demo Case.all_named true (DObj Nderef 6%nat [] 6%nat) {| rnode := Case.nd Nvar 6%nat []; rdsg := Case.var 6%nat |} = Ok c /\
    ev m = Ok (l1, 6%nat, m1) /\ ev m1 = Ok (l2, 7%nat, m2) /\ l1 <> l2 /\
    run_assign Case.demo ev (2%nat, 0) c m = Ok m' /\
    load m' l2 8 = load m (2%nat, 0) 8 /\ load m' l1 8 = load m l1 8 /\ load m l1 8 <> load m (2%nat, 0) 8.
Proof.
  exists Case.next, [[]; [0; 0; 0; 0; 0; 0; 0; 0]; [1; 2; 3; 4; 5; 6; 7; 8]; [9; 9; 9; 9; 9; 9; 9; 9]].
  do 6 eexists. repeat split; try reflexivity; discriminate.
Qed.

Print Assumptions C68_assignment.
Print Assumptions C68_lengths.
Print Assumptions C68_open_value_parameters.
Print Assumptions C68_string_parameters.
Print Assumptions C68_value_parameters.
Print Assumptions C68_copies_are_private.
Print Assumptions C68_var_parameters.
Print Assumptions C68_parameters_keep_their_shape.
Print Assumptions C68_records_passed_on.
Print Assumptions C68_extended_value_records_refuted.
Print Assumptions C68_short_value_arrays_refuted.
Print Assumptions C68_guarded_assignment_refuted.
Print Assumptions C68_self_assignment_refuted.
Print Assumptions C68_designator_evaluated_twice_refuted.
