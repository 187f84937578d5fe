(** C16: the registry of modules. *)
From Verif Require Import Base ArrZ CStrModel CStrProofs CStrProps ModRegModel.

(** Proper names: arrays of bytes with a 0X. *)
Definition named (n : list Z) : Prop := bytes n /\ terminated n.
Definition good_ev (e : ev) : Prop := match e with Load _ n _ cs => named n /\ Forall (fun c => named (fst c)) cs | Unload n => named n end.
(** The modules loaded by a history, with what they import. *)
Definition loads (es : list ev) : list (Z * list Z) := flat_map (fun e => match e with Load a _ is _ => [(a, is)] | _ => [] end) es.
Definition good_mod (m : modul) : Prop := named (mname m) /\ Forall (fun c => named (cname c)) (mcmds m).

Lemma copy_named : forall s k, named s -> (1 <= k)%nat -> exists d, COPY s (repeat 0 k) = Ok d /\ named d /\ str_of d = firstn (k - 1) (str_of s).
Proof.
  intros s k [Bs Ts] K. destruct (C07_copy s (repeat 0 k) (or_introl Ts) ltac:(rewrite repeat_length; lia)) as (j & d & E & L & T & S & J & R). rewrite repeat_length in *. exists d. split; auto.
  assert (SD : str_of d = firstn (k - 1) (str_of s)) by (rewrite S; destruct J as [[-> J]|[-> J]]; auto; rewrite !firstn_all2 by lia; auto).
  split; auto. split; auto. destruct (terminated_split d T) as (r & Ed). rewrite Ed. apply Forall_app. split.
  - rewrite SD. destruct (terminated_split s Ts) as (rs & Es). assert (Q : bytes (str_of s)) by (rewrite Es in Bs; apply Forall_app in Bs; apply Bs). unfold bytes in *. rewrite Forall_forall in *. intros x X. apply Q. rewrite <- (firstn_skipn (k - 1) (str_of s)). apply in_or_app. auto.
  - constructor; [unfold is_byte; lia|]. assert (Lj : length (str_of d) = j) by (rewrite S, firstn_length; destruct J as [[-> J]|[-> J]]; lia).
    assert (Rr : skipn (Datatypes.S j) d = r) by (rewrite Ed, skipn_app, Lj; rewrite skipn_all2 by lia; replace (Datatypes.S j - j)%nat with 1%nat by lia; auto). rewrite R in Rr. rewrite <- Rr. apply Forall_forall. intros x X.
    assert (In x (repeat 0 k)) by (rewrite <- (firstn_skipn (Datatypes.S j) (repeat 0 k)); apply in_or_app; auto). apply repeat_spec in H. subst. unfold is_byte. lia.
Qed.
Lemma ne_named : forall a b, named a -> named b -> exists v, str_rel RNeq a b = Ok v /\ (v = true <-> str_of a <> str_of b).
Proof. intros a b [Ba Ta] [Bb Tb]. destruct (C06_string_relations a b Ba Bb Ta Tb) as (eq & ne & lt & le & gt & ge & _ & E & _ & _ & _ & _ & _ & H & _). exists ne. auto. Qed.
Lemma str_dec : forall a b : list Z, a = b \/ a <> b.
Proof. intros a b. destruct (list_eq_dec Z.eq_dec a b); auto. Qed.

(** Look-up by name: the latest registered module with that name. *)
Lemma ThisMod_spec : forall ms name, Forall good_mod ms -> named name ->
  (ThisMod name ms = Ok None /\ forall m, In m ms -> str_of (mname m) <> str_of name) \/
  exists l1 m l2, ms = l1 ++ m :: l2 /\ ThisMod name ms = Ok (Some m) /\ str_of (mname m) = str_of name /\ forall x, In x l1 -> str_of (mname x) <> str_of name.
Proof.
  induction ms as [|m ms IH]; intros name G N; cbn [ThisMod]; [left; split; auto; intros m []|]. inversion G as [|? ? [G1 _] G2]; subst. destruct (ne_named (mname m) name G1 N) as (v & E & H). rewrite E, bind_ok. destruct v.
  - destruct (IH name G2 N) as [(A & B)|(l1 & x & l2 & -> & A & B & C)]; [left; split; auto; intros y [<-|Y]; auto; apply H; auto|right]. exists (m :: l1), x, l2. split; auto. split; auto. split; auto. intros y [<-|Y]; auto. apply H; auto.
  - right. exists [], m, ms. split; auto. split; auto. split; [|intros x []]. destruct (str_dec (str_of (mname m)) (str_of name)) as [|D]; auto. apply H in D. discriminate.
Qed.
Lemma Free_spec : forall ms name, Forall good_mod ms -> named name ->
  (FreeModule name ms = Ok (-1, ms) /\ forall m, In m ms -> str_of (mname m) <> str_of name) \/
  exists l1 m l2, ms = l1 ++ m :: l2 /\ str_of (mname m) = str_of name /\ (forall x, In x l1 -> str_of (mname x) <> str_of name) /\
    FreeModule name ms = Ok (if mref m =? 0 then (0, l1 ++ l2) else (mref m, ms)).
Proof.
  induction ms as [|m ms IH]; intros name G N; cbn [FreeModule]; [left; split; auto; intros m []|]. inversion G as [|? ? [G1 _] G2]; subst. destruct (ne_named (mname m) name G1 N) as (v & E & H). rewrite E, bind_ok. destruct v.
  - destruct (IH name G2 N) as [(A & B)|(l1 & x & l2 & -> & B & C & A)]; [left; rewrite A, bind_ok; split; auto; intros y [<-|Y]; auto; apply H; auto|right].
    exists (m :: l1), x, l2. split; auto. split; auto. split; [intros y [<-|Y]; auto; apply H; auto|]. rewrite A, bind_ok. destruct (mref x =? 0); auto.
  - right. exists [], m, ms. split; auto. split; [|split; [intros x []|destruct (mref m =? 0); auto]]. destruct (str_dec (str_of (mname m)) (str_of name)) as [|D]; auto. apply H in D. discriminate.
Qed.

(** Invariant: a reference count is at least the number of times that loaded modules have imported the module. *)
Definition times (a : Z) (l : list (Z * list Z)) : Z := Z.of_nat (count_occ Z.eq_dec (flat_map snd l) a).
Definition inv (ms : list modul) (l : list (Z * list Z)) : Prop := Forall good_mod ms /\ NoDup (map mid ms) /\ (forall m, In m ms -> In (mid m) (map fst l)) /\ forall m, In m ms -> mref m = times (mid m) l.
(** Histories in which addresses are new and imports are loaded and still registered. *)
Definition orderly (es : list ev) : Prop := NoDup (map fst (loads es)) /\ forall l1 a n is cs l2, es = l1 ++ Load a n is cs :: l2 -> forall i, In i is -> In i (map fst (loads l1)).
Lemma INCREF_spec : forall ms a ms', INCREF a ms = Ok ms' -> map mid ms' = map mid ms /\ forall m', In m' ms' -> exists m, In m ms /\ mid m = mid m' /\ mname m = mname m' /\ mcmds m = mcmds m' /\ mref m' >= mref m /\ (NoDup (map mid ms) -> mref m' = mref m + if mid m =? a then 1 else 0).
Proof.
  induction ms as [|m ms IH]; intros a ms' E; cbn [INCREF] in E; [inversion E; subst; split; auto; intros m' []|]. destruct (mid m =? a) eqn:Q.
  - unfold chk in E. destruct (in_intb 32 (mref m + 1)); [|discriminate]. rewrite bind_ok in E. inversion E; subst. split; auto. intros m' [<-|I].
    + exists m. cbn. split; auto. split; auto. split; auto. split; auto. split; [lia|]. rewrite Q. auto.
    + exists m'. split; [right; auto|]. split; auto. split; auto. split; auto. split; [lia|]. intro ND. cbn [map] in ND. inversion ND as [|? ? N1 N2]; subst. replace (mid m' =? a) with false; [lia|]. symmetry. apply Z.eqb_neq. intro X. apply N1. apply in_map_iff. exists m'. split; auto. lia.
  - destruct (INCREF a ms) as [r| | |] eqn:Er; try discriminate. rewrite bind_ok in E. inversion E; subst. destruct (IH a r Er) as [A B]. split; [cbn [map]; congruence|]. intros m' [<-|I].
    + exists m. split; [left; auto|]. split; auto. split; auto. split; auto. split; [lia|]. rewrite Q. intros. lia.
    + destruct (B m' I) as (x & X & X1 & X2 & X3 & X4 & X5). exists x. split; [right; auto|]. split; auto. split; auto. split; auto. split; auto. intro ND. apply X5. cbn [map] in ND. inversion ND; auto.
Qed.
Lemma increfs_spec : forall is ms ms', increfs is ms = Ok ms' -> NoDup (map mid ms) -> map mid ms' = map mid ms /\ forall m', In m' ms' -> exists m, In m ms /\ mid m = mid m' /\ mname m = mname m' /\ mcmds m = mcmds m' /\ mref m' = mref m + Z.of_nat (count_occ Z.eq_dec is (mid m)).
Proof.
  induction is as [|i is IH]; intros ms ms' E ND; cbn [increfs] in E.
  - inversion E; subst. split; auto. intros m' I. exists m'. cbn. split; auto. split; auto. split; auto. split; auto. lia.
  - destruct (INCREF i ms) as [ms1| | |] eqn:E1; try discriminate. rewrite bind_ok in E. destruct (INCREF_spec _ _ _ E1) as [A B]. destruct (IH ms1 ms' E ltac:(congruence)) as [C D]. split; [congruence|]. intros m' I. destruct (D m' I) as (m1 & I1 & J1 & J2 & J3 & J4). destruct (B m1 I1) as (m & I0 & K1 & K2 & K3 & _ & K4). exists m. split; auto. split; [congruence|]. split; [congruence|]. split; [congruence|].
    rewrite J4, K4 by auto. rewrite K1. cbn [count_occ]. destruct (Z.eq_dec i (mid m1)) as [->|Ne]; [rewrite Z.eqb_refl; lia|]. replace (mid m1 =? i) with false by lia. lia.
Qed.
Lemma regcmds_spec : forall a cs ms ms', regcmds a cs ms = Ok ms' -> Forall (fun c => named (fst c)) cs -> Forall good_mod ms -> map mid ms' = map mid ms /\ Forall good_mod ms' /\ forall m', In m' ms' -> exists m, In m ms /\ mid m = mid m' /\ mname m = mname m' /\ mref m' = mref m.
Proof.
  assert (R1 : forall a n p ms ms', REGCMD a n p ms = Ok ms' -> named n -> Forall good_mod ms -> map mid ms' = map mid ms /\ Forall good_mod ms' /\ forall m', In m' ms' -> exists m, In m ms /\ mid m = mid m' /\ mname m = mname m' /\ mref m' = mref m).
  { intros a n p. induction ms as [|m ms IH]; intros ms' E N G; cbn [REGCMD] in E; [inversion E; subst; split; auto; split; auto; intros m' []|]. inversion G as [|? ? G1 G2]; subst. destruct (mid m =? a) eqn:Q.
    - destruct (copy_named n CmdNameLen N ltac:(unfold CmdNameLen; lia)) as (d & D1 & D2 & _). rewrite D1, bind_ok in E. inversion E; subst. split; auto. split; [constructor; auto; destruct G1; split; auto; constructor; auto|]. intros m' [<-|I]; [exists m; split; [left; auto|]; cbn; auto|exists m'; split; [right; auto|]; auto].
    - destruct (REGCMD a n p ms) as [r| | |] eqn:Er; try discriminate. rewrite bind_ok in E. inversion E; subst. destruct (IH r eq_refl N G2) as (A & B & C). split; [cbn [map]; congruence|]. split; auto. intros m' [<-|I]; [exists m; split; [left|]; auto|]. destruct (C m' I) as (x & X & Y). exists x. split; [right|]; auto. }
  intros a. induction cs as [|[n p] cs IH]; intros ms ms' E F G; cbn [regcmds] in E.
  - inversion E; subst. split; auto. split; auto. intros m' I. exists m'. auto.
  - inversion F as [|? ? F1 F2]; subst. cbn [fst] in F1. destruct (REGCMD a n p ms) as [ms1| | |] eqn:E1; try discriminate. rewrite bind_ok in E. destruct (R1 _ _ _ _ _ E1 F1 G) as (A & B & C). destruct (IH ms1 ms' E F2 B) as (A2 & B2 & C2). split; [congruence|]. split; auto. intros m' I. destruct (C2 m' I) as (m1 & I1 & J1 & J2 & J3). destruct (C m1 I1) as (m & I0 & K1 & K2 & K3). exists m. split; auto. split; [congruence|]. split; congruence.
Qed.
Lemma nodup_l : forall (a b : list Z), NoDup (a ++ b) -> NoDup a.
Proof. induction a as [|x a IH]; intros b H; constructor; inversion H as [|? ? H1 H2]; subst; eauto. intro X. apply H1. apply in_or_app. auto. Qed.
Lemma loads_app : forall a b, loads (a ++ b) = loads a ++ loads b.
Proof. intros a b. unfold loads. apply flat_map_app. Qed.
Lemma times_app : forall a l1 l2, times a (l1 ++ l2) = times a l1 + times a l2.
Proof. intros a l1 l2. unfold times. rewrite flat_map_app, count_occ_app. lia. Qed.
Lemma run_app : forall es1 es2 ms, run (es1 ++ es2) ms = let* ms := run es1 ms in run es2 ms.
Proof. induction es1 as [|e es1 IH]; intros es2 ms; cbn [app run]; auto. destruct (step e ms); cbn [bind]; auto. Qed.
Lemma run_inv : forall es ms, orderly es -> Forall good_ev es -> run es [] = Ok ms -> inv ms (loads es).
Proof.
  induction es as [|e es IH] using rev_ind; intros ms [O1 O2] G R.
  - inversion R; subst. split; [constructor|]. split; [constructor|]. split; [intros m []|intros m []].
  - rewrite run_app in R. destruct (run es []) as [ms0| | |] eqn:R0; try discriminate. rewrite bind_ok in R. cbn [run] in R. destruct (step e ms0) as [ms1| | |] eqn:St; try discriminate. rewrite bind_ok in R. inversion R; subst ms1. apply Forall_app in G. destruct G as [G1 G2]. inversion G2 as [|? ? Ge _]; subst.
    rewrite loads_app in *. rewrite map_app in O1.
    assert (Or : orderly es) by (split; [apply (nodup_l _ _ O1)|]; intros l1 a n is cs l2 E i I; apply (O2 l1 a n is cs (l2 ++ [e])); auto; rewrite E, <- app_assoc; auto).
    destruct (IH ms0 Or G1 eq_refl) as (A & B & C & D). destruct e as [a name is cs|name]; cbn [step] in St.
    + destruct (increfs is ms0) as [m1| | |] eqn:E1; try discriminate. rewrite bind_ok in St. destruct (REGMOD name a m1) as [m2| | |] eqn:E2; try discriminate. rewrite bind_ok in St. destruct Ge as [Gn Gc].
      destruct (increfs_spec _ _ _ E1 B) as [I1 I2]. unfold REGMOD in E2. destruct (copy_named name ModNameLen Gn ltac:(unfold ModNameLen; lia)) as (d & D1 & D2 & _). rewrite D1, bind_ok in E2. inversion E2; subst m2.
      assert (Gm1 : Forall good_mod m1). { rewrite Forall_forall in *. intros m' M. destruct (I2 m' M) as (m & M0 & _ & N1 & N2 & _). destruct (A m M0) as [Q1 Q2]. rewrite N1 in Q1. rewrite N2 in Q2. split; auto. }
      destruct (regcmds_spec _ _ _ _ St Gc ltac:(constructor; auto; split; [auto|constructor])) as (J1 & J2 & J3). cbn [map mid] in J1.
      change (loads [Load a name is cs]) with [(a, is)] in *. cbn [map fst] in O1.
      assert (Na : ~ In a (map mid ms0)). { intro H. apply in_map_iff in H. destruct H as (m & M1 & M2). apply NoDup_remove_2 in O1. apply O1. rewrite app_nil_r. rewrite <- M1. apply C; auto. }
      assert (Na2 : ~ In a is). { intro H. specialize (O2 es a name is cs [] eq_refl a H). apply NoDup_remove_2 in O1. apply O1. rewrite app_nil_r. auto. }
      split; auto. split; [rewrite J1, I1; constructor; auto|]. split.
      * intros m M. rewrite map_app. apply in_or_app. assert (In (mid m) (a :: map mid m1)) by (rewrite <- J1; apply in_map; auto). destruct H as [<-|H]; [right; left; auto|left]. rewrite I1 in H. apply in_map_iff in H. destruct H as (x & <- & X). apply C; auto.
      * intros m M. destruct (J3 m M) as (x & [<-|X] & X1 & X2 & X3); cbn [mid mref] in *.
        -- rewrite X3, <- X1. clear X1. rewrite times_app. unfold times at 2. cbn [flat_map snd]. rewrite app_nil_r. rewrite (proj1 (count_occ_not_In Z.eq_dec is a)) by auto.
           replace (times a (loads es)) with 0; [lia|]. unfold times. rewrite (proj1 (count_occ_not_In Z.eq_dec _ a)); auto. intro H. apply in_flat_map in H. destruct H as ([b is'] & H1 & H2). cbn [snd] in H2. unfold loads in H1. apply in_flat_map in H1. destruct H1 as (ev0 & V1 & V2). destruct ev0 as [b' n' is'' cs'|]; [|destruct V2]. destruct V2 as [V2|[]]. inversion V2; subst. apply in_split in V1. destruct V1 as (l1 & l2 & ->).
           assert (Hx : In a (map fst (loads l1))) by (apply (O2 l1 b n' is' cs' (l2 ++ [Load a name is cs])); auto; rewrite <- app_assoc; auto). apply NoDup_remove_2 in O1. apply O1. rewrite app_nil_r. rewrite loads_app, map_app. apply in_or_app. auto.
        -- destruct (I2 x X) as (y & Y & Y1 & Y2 & Y3 & Y4). rewrite X3, Y4, (D y Y). rewrite times_app. unfold times at 3. cbn [flat_map snd]. rewrite app_nil_r. replace (mid m) with (mid y) by congruence. auto.
    + unfold Free in St. change (loads [Unload name]) with (@nil (Z * list Z)). rewrite app_nil_r. destruct (Free_spec ms0 name A Ge) as [(F & _)|(l1 & m & l2 & -> & _ & _ & F)]; rewrite F, bind_ok in St.
      * cbn in St. inversion St; subst. split; auto.
      * destruct (mref m =? 0) eqn:Q; cbn [bind] in St; inversion St; subst; [|split; auto].
        assert (SUB : forall x, In x (l1 ++ l2) -> In x (l1 ++ m :: l2)) by (intros x X; apply in_app_iff in X; apply in_or_app; destruct X; [left|right; right]; auto).
        split; [apply Forall_forall; intros x X; rewrite Forall_forall in A; apply A; auto|]. split; [rewrite map_app in *; cbn [map] in B; apply NoDup_remove_1 in B; auto|]. split; [intros x X; apply C; auto|intros x X; apply D; auto].
Qed.

(** A module is unloaded only when no module that was ever loaded imports it, so in particular none that is registered. *)
Theorem C16_unload_safe : forall es ms name ms', orderly es -> Forall good_ev es -> named name -> run es [] = Ok ms -> Free name ms = Ok (0, ms') ->
  exists l1 m l2, ms = l1 ++ m :: l2 /\ ms' = l1 ++ l2 /\ str_of (mname m) = str_of name /\ forall a is, In (a, is) (loads es) -> ~ In (mid m) is.
Proof.
  intros es ms name ms' O G N R F. destruct (run_inv es ms O G R) as (A & B & C & D). unfold Free in F. destruct (Free_spec ms name A N) as [(E & _)|(l1 & m & l2 & -> & S & _ & E)]; rewrite E, bind_ok in F.
  - cbn in F. inversion F.
  - exists l1, m, l2. split; auto. destruct (mref m =? 0) eqn:Q; cbn in F; [|rewrite Q in F; discriminate]. split; [congruence|]. split; auto. intros a is I H. assert (T : mref m = times (mid m) (loads es)) by (apply D; apply in_or_app; right; left; auto).
    assert (P : (count_occ Z.eq_dec (flat_map snd (loads es)) (mid m) > 0)%nat) by (apply count_occ_In; apply in_flat_map; exists (a, is); auto). unfold times in T. lia.
Qed.
(** A request to unload either removes exactly one module, the latest with that name, or changes nothing: then no module has that name, or the module
    has been imported. *)
Theorem C16_unload_effect : forall es ms name, orderly es -> Forall good_ev es -> named name -> run es [] = Ok ms ->
  (exists l1 m l2, ms = l1 ++ m :: l2 /\ Free name ms = Ok (0, l1 ++ l2) /\ str_of (mname m) = str_of name /\ forall x, In x l1 -> str_of (mname x) <> str_of name) \/
  (Free name ms = Ok (1, ms) /\ ((forall m, In m ms -> str_of (mname m) <> str_of name) \/ exists m a is, In m ms /\ str_of (mname m) = str_of name /\ In (a, is) (loads es) /\ In (mid m) is)).
Proof.
  intros es ms name O G N R. destruct (run_inv es ms O G R) as (A & B & C & D). unfold Free. destruct (Free_spec ms name A N) as [(E & H)|(l1 & m & l2 & -> & S & H & E)]; rewrite E, bind_ok; [right; split; auto|].
  destruct (mref m =? 0) eqn:Q; [left; exists l1, m, l2; auto|right]. rewrite Q. split; auto. right. assert (T : mref m = times (mid m) (loads es)) by (apply D; apply in_or_app; right; left; auto).
  assert (P : (count_occ Z.eq_dec (flat_map snd (loads es)) (mid m) > 0)%nat) by (unfold times in T; lia). apply count_occ_In in P. apply in_flat_map in P. destruct P as ([a is] & P1 & P2). exists m, a, is. split; [apply in_or_app; right; left; auto|]. auto.
Qed.
(** Look-up finds the latest registered module with the given name, and nothing if there is none. *)
Theorem C16_lookup : forall es ms name, orderly es -> Forall good_ev es -> named name -> run es [] = Ok ms ->
  (ThisMod name ms = Ok None /\ forall m, In m ms -> str_of (mname m) <> str_of name) \/
  exists l1 m l2, ms = l1 ++ m :: l2 /\ ThisMod name ms = Ok (Some m) /\ str_of (mname m) = str_of name /\ forall x, In x l1 -> str_of (mname x) <> str_of name.
Proof. intros es ms name O G N R. destruct (run_inv es ms O G R) as (A & _). apply ThisMod_spec; auto. Qed.
(** A module just loaded, with a name of at most 19 characters, is found under its name; its commands (names of at most 23 characters) are found, the
    last one registered under a name first. *)
Theorem C16_loaded_found : forall es ms a name is cs ms', orderly es -> Forall good_ev es -> named name -> Forall (fun c => named (fst c)) cs -> (length (str_of name) <= 19)%nat -> run es [] = Ok ms -> step (Load a name is cs) ms = Ok ms' ->
  exists m, ThisMod name ms' = Ok (Some m) /\ mid m = a /\
    forall c l1 p l2, cs = l1 ++ (c, p) :: l2 -> (length (str_of c) <= 23)%nat -> (forall x, In x l2 -> firstn 23 (str_of (fst x)) <> str_of c) -> ThisCommand m c = Ok (Some p).
Proof.
  intros es ms a name is cs ms' O G N Nc Ln R St. cbn [step] in St. destruct (increfs is ms) as [m1| | |] eqn:E1; try discriminate. rewrite bind_ok in St. unfold REGMOD in St. destruct (copy_named name ModNameLen N ltac:(unfold ModNameLen; lia)) as (d & D1 & D2 & D3). rewrite D1, !bind_ok in St.
  rewrite firstn_all2 in D3 by (unfold ModNameLen; lia).
  assert (RC : forall cs cl, Forall (fun c => named (fst c)) cs -> exists cl', regcmds a cs ({| mid := a; mname := d; mref := 0; mcmds := cl |} :: m1) = Ok ({| mid := a; mname := d; mref := 0; mcmds := cl' ++ cl |} :: m1) /\
     map (fun e => (str_of (cname e), cproc e)) cl' = rev (map (fun e => (firstn 23 (str_of (fst e)), snd e)) cs) /\ Forall (fun e => named (cname e)) cl').
  { clear cs Nc St. induction cs as [|[c p] cs IH]; intros cl F; cbn [regcmds]; [exists []; auto|]. inversion F as [|? ? F1 F2]; subst. cbn [REGCMD mid]. rewrite Z.eqb_refl. destruct (copy_named c CmdNameLen F1 ltac:(unfold CmdNameLen; lia)) as (dc & C1 & C2 & C3). cbn [fst] in *. rewrite C1, !bind_ok. cbn [mname mref mcmds].
    destruct (IH ({| cname := dc; cproc := p |} :: cl) F2) as (cl' & X & Y & Z0). exists (cl' ++ [{| cname := dc; cproc := p |}]). rewrite <- app_assoc. split; auto. split; [rewrite map_app, Y; cbn [map rev fst snd cname cproc]; rewrite C3; reflexivity|apply Forall_app; split; auto]. }
  destruct (RC cs [] Nc) as (cl & X & Y & Z0). rewrite X in St. inversion St; subst ms'. rewrite app_nil_r in *. exists {| mid := a; mname := d; mref := 0; mcmds := cl |}. split; [|split; auto].
  - cbn [ThisMod mname]. destruct (ne_named d name D2 N) as (v & V1 & V2). rewrite V1, bind_ok. destruct v; auto. exfalso. apply V2; auto.
  - intros c l1 p l2 -> Lc Uq. unfold ThisCommand. cbn [mcmds]. assert (Nm : named c) by (apply Forall_app in Nc; destruct Nc as [_ Nc]; inversion Nc; auto).
    rewrite map_app, rev_app_distr in Y. cbn [map rev fst snd] in Y. rewrite <- app_assoc in Y. cbn [app] in Y. rewrite (firstn_all2 (str_of c)) in Y by auto.
    assert (Uq' : forall s q, In (s, q) (rev (map (fun e : list Z * Z => (firstn 23 (str_of (fst e)), snd e)) l2)) -> s <> str_of c).
    { intros s q I. apply in_rev in I. apply in_map_iff in I. destruct I as (x & E & I). inversion E; subst. apply Uq; auto. }
    revert Y Uq' Z0. generalize (rev (map (fun e : list Z * Z => (firstn 23 (str_of (fst e)), snd e)) l2)). generalize (rev (map (fun e : list Z * Z => (firstn 23 (str_of (fst e)), snd e)) l1)). intros t h. clear X St. revert cl. induction h as [|[s q] h IH]; intros cl Y U F; destruct cl as [|e cl]; cbn [map app] in Y; try discriminate; inversion Y; inversion F as [|? ? F1 F2]; subst; cbn [find_cmd]; destruct (ne_named (cname e) c F1 Nm) as (v & V1 & V2); rewrite V1, bind_ok; destruct v; auto.
    + exfalso. apply V2; auto.
    + apply IH; auto. intros s q' I. apply (U s q'). right; auto.
    + exfalso. destruct (str_dec (str_of (cname e)) (str_of c)) as [Q|Q]; [|apply V2 in Q; discriminate]. apply (U (str_of (cname e)) (cproc e)); auto. left; auto.
Qed.

(** Finding: unloading a module does not release its imports.  B imports A; after B is gone A still cannot be unloaded. *)
Definition nmA : list Z := [65; 0].
Definition nmB : list Z := [66; 0].
Theorem C16_release_refuted : exists ms, run [Load 1 nmA [] []; Load 2 nmB [1] []; Unload nmB] [] = Ok ms /\ map mid ms = [1] /\ Free nmA ms = Ok (1, ms).
Proof. eexists. split; [vm_compute; reflexivity|]. split; reflexivity. Qed.
(** Finding: a module whose name has 20 or more characters is registered under its first 19 and not found under its name. *)
Theorem C16_long_name_refuted : exists name ms, named name /\ length (str_of name) = 20%nat /\ run [Load 1 name [] []] [] = Ok ms /\ ThisMod name ms = Ok None.
Proof.
  exists (repeat 65 20 ++ [0]). eexists. split; [split; [apply Forall_forall; intros x X; apply in_app_iff in X; destruct X as [X|[<-|[]]]; [apply repeat_spec in X; subst|]; unfold is_byte; lia|apply in_or_app; right; left; auto]|]. split; [reflexivity|]. split; [vm_compute; reflexivity|]. vm_compute. reflexivity.
Qed.
Definition exhist : list ev := [Load 1 nmA [] [([70; 0], 7)]; Load 2 nmB [1; 1] []; Load 3 [67; 0] [2; 1] []; Unload nmA; Unload [67; 0]].
Example exhist_orderly : orderly exhist /\ Forall good_ev exhist.
Proof.
  assert (NM : forall x, 0 < x < 256 -> named [x; 0]) by (intros x X; split; [repeat constructor; unfold is_byte; lia|right; left; auto]).
  split; [split|].
  - vm_compute. repeat constructor; cbn; intuition lia.
  - intros l1 a n is cs l2 E. repeat (destruct l1 as [|? l1]; [inversion E; subst; cbn; intuition lia|inversion E as [[E1 E2]]; subst; clear E; rename E2 into E]).
  - repeat constructor; cbn [good_ev fst]; try apply NM; try lia; repeat constructor; unfold is_byte; cbn; lia.
Qed.
Example exhist_runs : exists ms, run exhist [] = Ok ms /\ map mid ms = [2; 1] /\ map mref ms = [1; 3].
Proof. eexists. split; [vm_compute; reflexivity|]. auto. Qed.
Print Assumptions C16_unload_safe. Print Assumptions C16_unload_effect. Print Assumptions C16_lookup. Print Assumptions C16_loaded_found. Print Assumptions C16_release_refuted. Print Assumptions C16_long_name_refuted.
