(** Property C57: the search path. *)
From Verif Require Import Base ArrZ StringsModel StringsSpec StringsProofs CStrModel CStrProofs CStrProps PathModel PathSpec PathProofs PathProps TempProps.

(** * Specification: the directories of a search path. *)
(** The fields of a string separated by ';'. *)
Fixpoint fields (s : list Z) : list (list Z) :=
  match s with
  | [] => [[]]
  | c :: r => if c =? 59 then [] :: fields r else match fields r with f :: fs => (c :: f) :: fs | [] => [] end
  end.
Fixpoint triml (s : list Z) : list Z := match s with c :: r => if c =? 32 then triml r else s | [] => [] end.
Fixpoint trimr (s : list Z) : list Z :=
  match s with [] => [] | c :: r => match trimr r with [] => if c =? 32 then [] else [c] | q => c :: q end end.
(** '~' stands for the home directory, '~user' for the directory of that name beside it. *)
Definition expand (home e : list Z) : list Z :=
  match e with
  | c :: r => if c =? 126 then match r with [] => home | x :: _ => if (x =? 47) || (x =? 32) then home ++ r else dirpart home ++ r end else e
  | [] => []
  end.
(** The directories, in order: blank fields are ignored. *)
Definition dirs (home s : list Z) : list (list Z) :=
  map (fun e => trimr (expand home e)) (filter (fun e => 0 <? zlen e) (map triml (fields s))).
(** The file names tried, in order. *)
Definition tries (home : list Z) (sp : option (list Z)) (name : list Z) : list (list Z) :=
  if existsb (Z.eqb 47) name then [name]
  else match sp with
       | None => [mkname [46] name]
       | Some s => match dirs home s with [] => [name] | ds => map (fun d => mkname d name) ds end
       end.

(** * HasDir *)
Lemma hasdir_spec : forall p fuel q r, ~ In 0 p -> (length p < fuel)%nat ->
  hasdir_loop fuel (q ++ p ++ 0 :: r) (zlen q) = Ok (existsb (Z.eqb 47) p).
Proof.
  induction p as [|c p IH]; intros fuel q r N F; (destruct fuel as [|fuel]; [cbn [length] in F; lia|]); cbn [hasdir_loop app].
  - rewrite getA_at, bind_ok. reflexivity.
  - rewrite getA_at, bind_ok. destruct (c =? 0) eqn:E0; [exfalso; apply N; left; lia|]. cbn [negb andb existsb].
    rewrite (Z.eqb_sym 47 c). destruct (c =? 47) eqn:E; [reflexivity|]. cbn [negb orb].
    replace (q ++ c :: p ++ 0 :: r) with ((q ++ [c]) ++ p ++ 0 :: r) by (rewrite <- app_assoc; reflexivity).
    rewrite <- zlen_snoc with (x := c). apply IH; [intro; apply N; right; auto|cbn [length] in F; lia].
Qed.
Lemma HasDir_spec : forall a p, holds a p -> HasDir a = Ok (existsb (Z.eqb 47) p).
Proof.
  intros a p (r & -> & N). unfold HasDir. pose proof (hasdir_spec p (S (length (p ++ 0 :: r))) [] r N) as H. cbn [app] in H. rewrite zlen_nil in H.
  apply H. rewrite app_length. lia.
Qed.
Theorem C57_hasdir : forall name, terminated name -> exists b, HasDir name = Ok b /\ (b = true <-> In 47 (str_of name)).
Proof.
  intros name T. exists (existsb (Z.eqb 47) (str_of name)). split; [apply HasDir_spec, holds_term; auto|apply existsb47].
Qed.
Print Assumptions C57_hasdir.

(** * ScanPath *)
Definition issep (c : Z) := (c =? 32) || (c =? 59).
Fixpoint dropsep (s : list Z) : list Z := match s with c :: r => if issep c then dropsep r else s | [] => [] end.
Fixpoint untilsemi (s : list Z) : list Z := match s with c :: r => if c =? 59 then [] else c :: untilsemi r | [] => [] end.
Fixpoint fromsemi (s : list Z) : list Z := match s with c :: r => if c =? 59 then s else fromsemi r | [] => [] end.
Lemma dropsep_app : forall s, exists p, s = p ++ dropsep s.
Proof. induction s as [|c s (p & E)]; [exists []; auto|]. cbn [dropsep]. destruct (issep c); [exists (c :: p); cbn [app]; congruence|exists []; auto]. Qed.
Lemma semi_app : forall s, s = untilsemi s ++ fromsemi s.
Proof. induction s as [|c s IH]; [auto|]. cbn [untilsemi fromsemi]. destruct (c =? 59); [auto|]. cbn [app]. congruence. Qed.
Lemma skipsep_spec : forall s fuel q r, ~ In 0 s -> (length s < fuel)%nat ->
  exists p, s = p ++ dropsep s /\ skipsep fuel (q ++ s ++ 0 :: r) (zlen q) = Ok (zlen (q ++ p)).
Proof.
  induction s as [|c s IH]; intros fuel q r N F; (destruct fuel as [|fuel]; [cbn [length] in F; lia|]); cbn [skipsep app dropsep].
  - exists []. rewrite getA_at, bind_ok. split; [reflexivity|]. rewrite app_nil_r. reflexivity.
  - rewrite getA_at, bind_ok. fold (issep c). destruct (issep c) eqn:E.
    + destruct (IH fuel (q ++ [c]) r) as (p & E1 & E2); [intro; apply N; right; auto|cbn [length] in F; lia|].
      exists (c :: p). split; [cbn [app]; congruence|].
      replace (q ++ c :: s ++ 0 :: r) with ((q ++ [c]) ++ s ++ 0 :: r) by (rewrite <- app_assoc; reflexivity).
      rewrite <- zlen_snoc with (x := c). rewrite E2. rewrite <- app_assoc. reflexivity.
    + exists []. rewrite app_nil_r. auto.
Qed.
Lemma takedir_spec : forall s fuel q r dp dq, ~ In 0 s -> (length s < fuel)%nat -> zlen s <= zlen dq ->
  exists dq', takedir fuel (q ++ s ++ 0 :: r) (zlen q) (dp ++ dq) (zlen dp) = Ok (zlen (q ++ untilsemi s), (dp ++ untilsemi s) ++ dq', zlen (dp ++ untilsemi s))
    /\ zlen dq = zlen (untilsemi s) + zlen dq'.
Proof.
  induction s as [|c s IH]; intros fuel q r dp dq N F L; (destruct fuel as [|fuel]; [cbn [length] in F; lia|]); cbn [takedir app untilsemi].
  - exists dq. rewrite getA_at, bind_ok, !app_nil_r, zlen_nil. split; reflexivity.
  - rewrite getA_at, bind_ok. destruct (c =? 0) eqn:E0; [exfalso; apply N; left; lia|]. cbn [negb andb].
    destruct (c =? 59) eqn:E; cbn [negb].
    + exists dq. rewrite !app_nil_r, zlen_nil. auto.
    + rewrite zlen_cons in L. pose proof (zlen_nonneg _ s). destruct dq as [|y dq]; [rewrite zlen_nil in L; lia|]. rewrite zlen_cons in L.
      rewrite setA_at, bind_ok.
      destruct (IH fuel (q ++ [c]) r (dp ++ [c]) dq) as (dq' & E1 & E2); [intro; apply N; right; auto|cbn [length] in F; lia|lia|].
      exists dq'. replace (q ++ c :: s ++ 0 :: r) with ((q ++ [c]) ++ s ++ 0 :: r) by (rewrite <- app_assoc; reflexivity).
      rewrite <- zlen_snoc with (x := c). replace (dp ++ c :: dq) with ((dp ++ [c]) ++ dq) by (rewrite <- app_assoc; reflexivity).
      rewrite <- zlen_snoc with (x := c). rewrite E1. rewrite <- !app_assoc. cbn [app]. split; [reflexivity|]. rewrite !zlen_cons. lia.
Qed.
(** Longest prefix whose last character satisfies [keep]. *)
Fixpoint upto (keep : Z -> bool) (s : list Z) : list Z :=
  match s with [] => [] | c :: r => match upto keep r with [] => if keep c then [c] else [] | q => c :: q end end.
Lemma upto_snoc : forall keep s c, upto keep (s ++ [c]) = if keep c then s ++ [c] else upto keep s.
Proof.
  intros keep. induction s as [|x s IH]; intro c; cbn [app upto].
  - destruct (keep c); reflexivity.
  - rewrite IH. destruct (keep c); [destruct s; reflexivity|reflexivity].
Qed.
Lemma back_loop_spec : forall keep s fuel r, (length s < fuel)%nat -> back_loop fuel keep (s ++ r) (zlen s) = Ok (zlen (upto keep s)).
Proof.
  intro keep. induction s as [|c s IH] using rev_ind; intros fuel r F; (destruct fuel as [|fuel]; [lia|]); cbn [back_loop].
  - reflexivity.
  - rewrite zlen_snoc. pose proof (zlen_nonneg _ s). replace (zlen s + 1 >? 0) with true by lia.
    replace (zlen s + 1 - 1) with (zlen s) by lia. rewrite <- app_assoc. cbn [app]. rewrite getA_at, bind_ok, upto_snoc.
    destruct (keep c); [rewrite zlen_snoc; reflexivity|]. rewrite IH; [reflexivity|]. rewrite app_length in F. cbn [length] in F. lia.
Qed.
Lemma trimr_upto : forall s, trimr s = upto (fun c => negb (c =? 32)) s.
Proof. induction s as [|c s IH]; [auto|]. cbn [trimr upto]. rewrite IH. destruct (upto _ s); [destruct (c =? 32); auto|auto]. Qed.
Lemma dirpart_upto : forall s, dirpart s = upto (fun c => c =? 47) s.
Proof.
  induction s as [|c s IH]; [auto|]. cbn [dirpart upto]. rewrite <- IH.
  destruct (existsb (Z.eqb 47) (c :: s)) eqn:E.
  - destruct (dirpart s) as [|x q] eqn:D; [|reflexivity]. cbn [existsb] in E. rewrite (Z.eqb_sym 47 c) in E. destruct (c =? 47) eqn:E1; [reflexivity|].
    exfalso. cbn [orb] in E. apply existsb47 in E. destruct (dirpart_form s E) as (a & b & _ & _ & Q). destruct a; cbn [app] in Q; congruence.
  - assert (N : ~ In 47 (c :: s)) by (intro Q; apply existsb47 in Q; congruence).
    replace (dirpart s) with (@nil Z).
    + destruct (c =? 47) eqn:E1; [exfalso; apply N; left; lia|reflexivity].
    + destruct s as [|y s]; [reflexivity|]. cbn [dirpart]. destruct (existsb (Z.eqb 47) (y :: s)) eqn:E2; [|reflexivity].
      exfalso. apply N. right. apply existsb47. auto.
Qed.
Lemma upto_app : forall keep s, exists t, s = upto keep s ++ t.
Proof.
  induction s as [|c s (t & E)]; [exists []; auto|]. cbn [upto]. destruct (upto keep s) as [|x q].
  - destruct (keep c); [exists s; auto|exists (c :: s); auto].
  - exists t. cbn [app]. cbn [app] in E. congruence.
Qed.

(** One entry: the characters up to the next ';', with '~' expanded. *)
Lemma ScanPath_spec : forall home sp q s r dir, holds home (str_of home) -> sp = q ++ s ++ 0 :: r -> ~ In 0 s ->
  zlen s + zlen (str_of home) < zlen dir ->
  exists p dir', s = p ++ fromsemi (dropsep s) /\ ScanPath home (Some sp) (zlen q) dir = Ok (zlen (q ++ p), dir') /\
    holds dir' (trimr (expand (str_of home) (untilsemi (dropsep s)))) /\ zlen dir' = zlen dir.
Proof.
  intros home sp q s r dir Hh Esp N L. unfold ScanPath.
  destruct (skipsep_spec s (S (length sp)) q r N) as (p & Ep & Es); [rewrite Esp, !app_length; lia|].
  rewrite <- Esp in Es. rewrite Es, bind_ok. set (s1 := dropsep s) in *.
  assert (Esp1 : sp = (q ++ p) ++ s1 ++ 0 :: r) by (rewrite Esp, Ep, <- !app_assoc; reflexivity). set (q1 := q ++ p) in *.
  assert (N1 : ~ In 0 s1) by (intro Q; apply N; rewrite Ep, in_app_iff; auto).
  assert (L1 : zlen s1 + zlen (str_of home) < zlen dir) by (rewrite Ep, zlen_app in L; pose proof (zlen_nonneg _ p); lia).
  assert (G : getA sp (zlen q1) = Ok (match s1 with c :: _ => c | [] => 0 end)).
  { rewrite Esp1. destruct s1; cbn [app]; apply getA_at. }
  rewrite G, bind_ok. set (h := str_of home) in *. pose proof (zlen_nonneg _ h).
  assert (Fin : forall pre s2 q2, s1 = pre ++ s2 -> q2 = q1 ++ pre -> untilsemi s1 = pre ++ untilsemi s2 -> fromsemi s1 = fromsemi s2 ->
     forall dp dq, ~ In 0 dp -> zlen dp + zlen dq = zlen dir -> zlen dp + zlen s2 < zlen dir ->
     exists p0 dir', s = p0 ++ fromsemi s1 /\
      (let* r := takedir (S (length sp)) sp (zlen q2) (dp ++ dq) (zlen dp) in
       let '(pos, dir, i) := r in
       let* i := back_loop (S (length dir)) (fun c => negb (c =? 32)) dir i in
       let* dir := setA dir i 0 in Ok (pos, dir)) = Ok (zlen (q ++ p0), dir') /\ holds dir' (trimr (dp ++ untilsemi s2)) /\ zlen dir' = zlen dir).
  { intros pre s2 q2 E2 Eq2 Eu Ef dp dq N0 Ld Lt.
    destruct (takedir_spec s2 (S (length sp)) q2 r dp dq) as (dq' & T1 & T2).
    - intro Q. apply N1. rewrite E2, in_app_iff. auto.
    - rewrite Esp1, E2, !app_length. lia.
    - lia.
    - replace (q2 ++ s2 ++ 0 :: r) with sp in T1 by (rewrite Esp1, E2, Eq2, <- !app_assoc; reflexivity). rewrite T1, bind_ok. cbv iota beta.
      rewrite back_loop_spec by (rewrite !app_length; lia). rewrite bind_ok, <- trimr_upto.
      destruct (upto_app (fun c => negb (c =? 32)) (dp ++ untilsemi s2)) as (t & Et). rewrite <- trimr_upto in Et.
      set (e := trimr (dp ++ untilsemi s2)) in *.
      assert (N2 : ~ In 0 e).
      { intro Q. assert (Q1 : In 0 (dp ++ untilsemi s2)) by (rewrite Et, in_app_iff; auto). rewrite in_app_iff in Q1. destruct Q1 as [Q1|Q1]; [auto|].
        apply N1. rewrite E2, in_app_iff. right. rewrite (semi_app s2), in_app_iff. auto. }
      assert (Z1 : zlen t + zlen dq' > 0).
      { pose proof (f_equal (@length Z) Et) as LL. pose proof (zlen_nonneg _ t). pose proof (f_equal zlen (semi_app s2)) as LL2. rewrite zlen_app in LL2. pose proof (zlen_nonneg _ (fromsemi s2)). lia. }
      assert (Z2 : zlen e + (zlen t + zlen dq') = zlen dir) by (pose proof (f_equal zlen Et) as LL; rewrite !zlen_app in LL; lia).
      rewrite Et, <- app_assoc. destruct (t ++ dq') as [|y u] eqn:Eu2.
      { pose proof (f_equal zlen Eu2) as LL. rewrite zlen_app, zlen_nil in LL. lia. }
      rewrite setA_at, bind_ok. exists (p ++ pre ++ untilsemi s2), (e ++ 0 :: u). split; [|split; [|split]].
      + rewrite Ef. rewrite <- !app_assoc. rewrite <- semi_app, <- E2. exact Ep.
      + rewrite Eq2. unfold q1. rewrite <- !app_assoc. reflexivity.
      + exists u. auto.
      + pose proof (f_equal zlen Eu2) as LL. rewrite zlen_app, zlen_cons in LL. rewrite zlen_app, zlen_cons. lia. }
  destruct s1 as [|c s2] eqn:Es1.
  - cbn [Z.eqb]. rewrite bind_ok. cbv iota beta. destruct (Fin [] [] q1) with (dp := @nil Z) (dq := dir) as (p0 & dir' & A & B & C & D); auto.
    + rewrite app_nil_r. auto.
    + rewrite zlen_nil in *. lia.
    + exists p0, dir'. split; auto.
  - destruct (c =? 126) eqn:E126.
    + replace c with 126 in * by lia.
      assert (G2 : getA sp (zlen q1 + 1) = Ok (match s2 with c :: _ => c | [] => 0 end)).
      { rewrite Esp1. rewrite <- zlen_snoc with (x := 126). cbn [app]. replace (q1 ++ 126 :: s2 ++ 0 :: r) with ((q1 ++ [126]) ++ s2 ++ 0 :: r) by (rewrite <- app_assoc; reflexivity).
        destruct s2; cbn [app]; apply getA_at. }
      rewrite G2, bind_ok. destruct Hh as (hr & Eh & Nh). fold h in Eh, Nh. rewrite zlen_cons in L1. pose proof (zlen_nonneg _ s2).
      pose proof (copyz_spec h (S (length home)) [] hr [] dir Nh ltac:(lia)) as C. cbn [app] in C. rewrite !zlen_nil, Z.add_0_l in C. rewrite <- Eh in C. rewrite C by (rewrite Eh, app_length; lia).
      rewrite bind_ok. cbv iota beta. set (dq := skipn (length h) dir).
      assert (Ldq : zlen h + zlen dq = zlen dir) by (unfold dq, zlen in *; rewrite skipn_length; lia).
      assert (EU : untilsemi (126 :: s2) = [126] ++ untilsemi s2) by reflexivity.
      assert (EF : fromsemi (126 :: s2) = fromsemi s2) by reflexivity.
      set (ch := match s2 with c :: _ => c | [] => 0 end).
      destruct (negb (ch =? 47) && negb (ch =? 0) && negb (ch =? 59) && negb (ch =? 32)) eqn:Ech.
      * rewrite back_loop_spec by (apply (f_equal (@length Z)) in Eh; rewrite app_length in Eh; lia). rewrite <- dirpart_upto. rewrite !bind_ok. cbv iota beta.
        destruct (upto_app (fun c => c =? 47) h) as (t & Et). rewrite <- dirpart_upto in Et.
        pose proof (f_equal zlen Et) as LL. rewrite zlen_app in LL. pose proof (zlen_nonneg _ t).
        rewrite <- zlen_snoc with (x := 126). replace (h ++ dq) with (dirpart h ++ t ++ dq) by (rewrite app_assoc, <- Et; reflexivity).
        destruct (Fin [126] s2 (q1 ++ [126])) with (dp := dirpart h) (dq := t ++ dq) as (p0 & dir' & A & B & C' & D); auto.
        -- intro Q. apply Nh. rewrite Et, in_app_iff. auto.
        -- rewrite zlen_app. lia.
        -- lia.
        -- exists p0, dir'. split; auto. split; auto. split; auto. replace (expand h (untilsemi (126 :: s2))) with (dirpart h ++ untilsemi s2); [auto|].
           rewrite EU. cbn [app expand]. replace (126 =? 126) with true by reflexivity. destruct s2 as [|x s3]; [discriminate|]. cbn [ch] in Ech. cbn [untilsemi].
           unfold ch in Ech. destruct (x =? 59); [rewrite andb_false_r in Ech; discriminate|]. destruct (x =? 47), (x =? 32); try reflexivity; rewrite ?andb_false_r in Ech; discriminate.
      * rewrite !bind_ok. cbv iota beta. rewrite <- zlen_snoc with (x := 126).
        destruct (Fin [126] s2 (q1 ++ [126])) with (dp := h) (dq := dq) as (p0 & dir' & A & B & C' & D); auto; [lia|].
        exists p0, dir'. split; auto. split; auto. split; auto. replace (expand h (untilsemi (126 :: s2))) with (h ++ untilsemi s2); [auto|].
        rewrite EU. cbn [app expand]. replace (126 =? 126) with true by reflexivity. destruct s2 as [|x s3]; [cbn [untilsemi]; apply app_nil_r|]. cbn [untilsemi].
        unfold ch in Ech. destruct (x =? 59); [apply app_nil_r|].
        assert (x =? 0 = false) by (destruct (x =? 0) eqn:Q; [exfalso; apply N1; right; left; lia|reflexivity]).
        destruct (x =? 47), (x =? 32), (x =? 0); try reflexivity; discriminate.
    + rewrite bind_ok. cbv iota beta. destruct (Fin [] (c :: s2) q1) with (dp := @nil Z) (dq := dir) as (p0 & dir' & A & B & C & D); auto.
      * rewrite app_nil_r. auto.
      * rewrite zlen_nil. lia.
      * exists p0, dir'. split; auto. split; auto. split; auto. replace (expand h (untilsemi (c :: s2))) with ([] ++ untilsemi (c :: s2)); [auto|].
        cbn [app untilsemi]. destruct (c =? 59); [reflexivity|]. unfold expand. rewrite E126. reflexivity.
Qed.

(** [dirs] follows the same steps. *)
Lemma fields_form : forall s, fields s = untilsemi s :: match fromsemi s with [] => [] | _ :: r => fields r end.
Proof.
  induction s as [|c s IH]; [reflexivity|]. cbn [fields untilsemi fromsemi]. destruct (c =? 59); [reflexivity|]. rewrite IH. reflexivity.
Qed.
Lemma dirs_drop : forall h s, dirs h s = dirs h (dropsep s).
Proof.
  intros h. induction s as [|c s IH]; [reflexivity|]. cbn [dropsep]. destruct (issep c) eqn:E; [|reflexivity]. rewrite <- IH.
  unfold issep in E. unfold dirs. cbn [fields]. destruct (c =? 59) eqn:E1; [reflexivity|]. destruct (c =? 32) eqn:E2; [|discriminate].
  rewrite (fields_form s). cbn [map triml]. rewrite E2. reflexivity.
Qed.
Lemma dirs_step : forall h s, dirs h s = match dropsep s with
  | [] => [] | s1 => trimr (expand h (untilsemi s1)) :: dirs h (fromsemi s1) end.
Proof.
  intros h s. rewrite dirs_drop. assert (D : forall c r, dropsep s = c :: r -> issep c = false).
  { clear. induction s as [|x s IH]; intros c r H; [discriminate|]. cbn [dropsep] in H. destruct (issep x) eqn:E; eauto. inversion H; subst; auto. }
  destruct (dropsep s) as [|c r]; [reflexivity|]. specialize (D c r eq_refl). unfold issep in D.
  destruct (c =? 32) eqn:E1; [discriminate|]. cbn [orb] in D. cbv zeta. rewrite (dirs_drop h (fromsemi (c :: r))).
  unfold dirs at 1. rewrite fields_form. cbn [map untilsemi fromsemi]. rewrite D. cbn [triml]. rewrite E1. cbn [filter].
  pose proof (zlen_nonneg _ (untilsemi r)). rewrite zlen_cons. replace (0 <? 1 + zlen (untilsemi r)) with true by lia. cbn [map]. f_equal.
  assert (F : forall t, fromsemi t = [] \/ exists u, fromsemi t = 59 :: u).
  { clear. induction t as [|x t IH]; [auto|]. cbn [fromsemi]. destruct (x =? 59) eqn:E; [right; exists t; f_equal; lia|auto]. }
  destruct (F r) as [->|(u & ->)]; [reflexivity|]. cbn [dropsep]. replace (issep 59) with true by reflexivity. rewrite <- dirs_drop. reflexivity.
Qed.

(** Successive calls of ScanPath give the directories of the search path in order, then "". *)
Theorem C57_scanpath : forall home sp q s r dir, terminated home -> sp = q ++ s ++ 0 :: r -> ~ In 0 s -> zlen s + zlen (str_of home) < zlen dir ->
  exists pos' dir' q' s', ScanPath home (Some sp) (zlen q) dir = Ok (pos', dir') /\ terminated dir' /\ zlen dir' = zlen dir /\
    sp = q' ++ s' ++ 0 :: r /\ pos' = zlen q' /\ ~ In 0 s' /\ zlen s' <= zlen s /\
    match dirs (str_of home) s with
    | [] => str_of dir' = [] /\ dirs (str_of home) s' = []
    | d :: ds => str_of dir' = d /\ dirs (str_of home) s' = ds /\ zlen s' < zlen s
    end.
Proof.
  intros home sp q s r dir Th Esp N L. destruct (ScanPath_spec home sp q s r dir (holds_term _ Th) Esp N L) as (p & dir' & E1 & E2 & E3 & E4).
  exists (zlen (q ++ p)), dir', (q ++ p), (fromsemi (dropsep s)). split; auto. split; [eapply holds_terminated; eauto|]. split; auto.
  split; [rewrite Esp, E1 at 1; rewrite <- !app_assoc; reflexivity|]. split; auto. split; [intro Q; apply N; rewrite E1, in_app_iff; auto|].
  pose proof (f_equal zlen E1) as LL. rewrite zlen_app in LL. pose proof (zlen_nonneg _ p). split; [lia|].
  rewrite (holds_str _ _ E3). rewrite dirs_step.
  assert (D : forall c x, dropsep s = c :: x -> issep c = false).
  { clear. induction s as [|y s IH]; intros c x H; [discriminate|]. cbn [dropsep] in H. destruct (issep y) eqn:E; eauto. inversion H; subst; auto. }
  destruct (dropsep s) as [|c x] eqn:Ed; [auto|]. split; auto. split; auto. specialize (D c x eq_refl). unfold issep in D. destruct (c =? 59) eqn:E59; [rewrite orb_true_r in D; discriminate|].
  destruct (dropsep_app s) as (u & Eu). rewrite Ed in Eu. pose proof (f_equal zlen Eu) as LL2. rewrite zlen_app, zlen_cons in LL2. pose proof (zlen_nonneg _ u).
  cbn [fromsemi]. rewrite E59. pose proof (f_equal zlen (semi_app x)) as LL3. rewrite zlen_app in LL3. pose proof (zlen_nonneg _ (untilsemi x)). lia.
Qed.
Print Assumptions C57_scanpath.

(** * Old *)
Lemma mkfile : forall dir name path d n, holds dir d -> holds name n -> zlen dir <= 32767 -> zlen name <= 32767 -> zlen d + zlen n + 2 <= zlen path ->
  exists path', MakeFileName dir name path = Ok path' /\ str_of path' = mkname d n /\ zlen path' = zlen path.
Proof.
  intros dir name path d n Hd Hn L1 L2 L3. pose proof (C22_makefilename dir name path (holds_terminated _ _ Hd) (holds_terminated _ _ Hn) L1 L2) as M. cbv zeta in M.
  rewrite (holds_str _ _ Hd), (holds_str _ _ Hn) in M. destruct (chop_app d) as (k & E). pose proof (f_equal zlen E) as LL. rewrite zlen_app in LL.
  pose proof (zlen_nonneg _ (repeat 47 k)). replace (zlen (chop d) + zlen n + 2 >? zlen path) with false in M by lia.
  destruct M as (p' & A & B & _ & C). eauto.
Qed.
Lemma old_loop_some : forall opens home sp name n r, terminated home -> holds name n -> zlen name <= 32767 ->
  forall fuel q s d dir path, sp = q ++ s ++ 0 :: r -> ~ In 0 s -> zlen s + zlen (str_of home) < zlen dir -> zlen dir <= 32767 ->
  holds dir d -> zlen d + zlen n + 2 <= zlen path ->
  (forall e, In e (dirs (str_of home) s) -> e <> [] /\ zlen e + zlen n + 2 <= zlen path) -> (d = [] -> dirs (str_of home) s = []) -> zlen s + 1 < Z.of_nat fuel ->
  old_loop fuel opens home (Some sp) name (zlen q) dir path =
    Ok (find opens (str_of path :: match d with [] => [] | _ => map (fun d => mkname d n) (d :: dirs (str_of home) s) end)).
Proof.
  intros opens home sp name n r Th Hn Ln. induction fuel as [|fuel IH]; intros q s d dir path Esp N L Ld Hd Lp Hne Hnil F.
  { pose proof (zlen_nonneg _ s). lia. }
  cbn [old_loop find]. destruct (opens (str_of path)) eqn:Eo; [reflexivity|].
  assert (G : getA dir 0 = Ok (match d with c :: _ => c | [] => 0 end)).
  { destruct Hd as (dr & -> & _). destruct d as [|c d]; cbn [app]; [apply (getA_at [])|apply (getA_at [] c)]. }
  rewrite G, bind_ok. destruct d as [|c d]; [reflexivity|].
  destruct (c =? 0) eqn:E0; [destruct Hd as (dr & _ & Nd); exfalso; apply Nd; left; lia|].
  assert (Lcd : zlen (c :: d) < zlen dir) by (destruct Hd as (dr & -> & _); rewrite zlen_app, (zlen_cons _ 0 dr); pose proof (zlen_nonneg _ dr); lia).
  destruct (mkfile dir name path (c :: d) n) as (path' & A & B & C); auto. rewrite A, bind_ok.
  destruct (C57_scanpath home sp q s r dir Th Esp N L) as (pos' & dir' & q' & s' & S1 & S2 & S3 & S4 & S5 & S6 & S7 & S8).
  rewrite S1, bind_ok. cbv iota beta. rewrite S5. destruct (dirs (str_of home) s) as [|d1 ds] eqn:Eds.
  - destruct S8 as [S8 S9]. destruct fuel as [|fuel]; [pose proof (zlen_nonneg _ s); lia|].
    cbn [old_loop]. rewrite B. cbn [map find]. destruct (opens (mkname (c :: d) n)); [reflexivity|].
    assert (G' : getA dir' 0 = Ok 0).
    { pose proof (holds_term dir' S2) as (dr & Hd' & _). rewrite S8 in Hd'. rewrite Hd'. apply (getA_at []). }
    rewrite G', bind_ok. reflexivity.
  - destruct S8 as (S8 & S9 & S10). rewrite (IH q' s' d1 dir' path'); auto; try lia.
    + rewrite B, S9. destruct d1 as [|x d1']; [exfalso; apply (proj1 (Hne [] (or_introl eq_refl))); auto|]. reflexivity.
    + rewrite <- S8. apply holds_term; auto.
    + rewrite C. apply Hne. left. auto.
    + rewrite S9, C. intros e He. apply Hne. right. auto.
    + intro Q. exfalso. apply (proj1 (Hne d1 (or_introl eq_refl))). auto.
Qed.
Lemma old_loop_none : forall opens home name n fuel dir path, holds name n -> zlen name <= 32767 -> holds dir [] -> (0 < fuel)%nat -> forall sp pos,
  old_loop fuel opens home sp name pos dir path = Ok (find opens [str_of path]).
Proof.
  intros opens home name n fuel dir path Hn Ln Hd F sp pos. destruct fuel as [|fuel]; [lia|]. cbn [old_loop find]. destruct (opens (str_of path)); [reflexivity|].
  destruct Hd as (dr & -> & _). cbn [app]. change (getA (0 :: dr) 0) with (@Ok Z 0). rewrite bind_ok. reflexivity.
Qed.

(** Old opens the first of the names to be tried which can be opened, and returns NIL only if none can be.  The buffers of
    256 characters must be able to hold the directories; an empty home directory is excluded (see below). *)
Theorem C57_old : forall opens home sp name dir path, terminated home -> terminated name -> str_of name <> [] -> zlen name <= 32767 ->
  zlen dir <= 32767 -> 1 < zlen dir -> zlen (str_of name) + 3 <= zlen path ->
  match sp with Some s => terminated s /\ zlen (str_of s) + zlen (str_of home) < zlen dir /\
    forall e, In e (dirs (str_of home) (str_of s)) -> e <> [] /\ zlen e + zlen (str_of name) + 2 <= zlen path | None => True end ->
  Old opens home sp name dir path = Ok (find opens (tries (str_of home) (option_map str_of sp) (str_of name))).
Proof.
  intros opens home sp name dir path Th Tn Nn Ln Ld Ld2 Lp Hs. pose proof (holds_term name Tn) as Hn. set (n := str_of name) in *. clearbody n.
  unfold Old, tries.
  assert (G : getA name 0 = Ok (match n with c :: _ => c | [] => 0 end)).
  { destruct Hn as (dr & -> & _). destruct n as [|c d]; cbn [app]; [apply (getA_at [])|apply (getA_at [] c)]. }
  rewrite G, bind_ok. replace ((match n with c :: _ => c | [] => 0 end) =? 0) with false.
  2:{ destruct n as [|c n']; [congruence|]. destruct Hn as (dr & _ & Q). symmetry. apply Z.eqb_neq. intros ->. apply Q. left; auto. }
  rewrite (HasDir_spec name n Hn), bind_ok. pose proof (zlen_nonneg _ n).
  destruct (existsb (Z.eqb 47) n) eqn:E47.
  - destruct dir as [|y dir]; [rewrite zlen_nil in Ld2; lia|]. pose proof (setA_at [] y dir 0) as SA. cbn [app] in SA. rewrite zlen_nil in SA. rewrite SA, bind_ok.
    destruct (copy_holds name path n Hn) as (p' & A & B & C); [lia|]. rewrite A, bind_ok.
    rewrite (old_loop_none opens home name n) by (auto; try (exists dir; split; [reflexivity|intros []]); lia). rewrite (holds_str _ _ B). reflexivity.
  - destruct sp as [sp|]; cbn [option_map].
    + destruct Hs as (Ts & Ls & Hne). pose proof (holds_term sp Ts) as (r & Esp & Nsp). set (s := str_of sp) in *.
      destruct (C57_scanpath home sp [] s r dir Th Esp Nsp Ls) as (pos1 & dir1 & q1 & s1 & S1 & S2 & S3 & S4 & S5 & S6 & S7 & S8).
      rewrite zlen_nil in S1. rewrite S1, bind_ok. cbv iota beta.
      assert (Hlen : zlen (str_of dir1) < zlen dir1).
      { pose proof (holds_term dir1 S2) as (dr & Q & _). apply (f_equal zlen) in Q. rewrite zlen_app, zlen_cons in Q. pose proof (zlen_nonneg _ dr). lia. }
      assert (Hfit : zlen (str_of dir1) + zlen n + 2 <= zlen path).
      { destruct (dirs (str_of home) s) as [|d1 ds]; destruct S8 as [-> S9]; [rewrite zlen_nil; lia|apply Hne; left; auto]. }
      destruct (mkfile dir1 name path (str_of dir1) n) as (path1 & A & B & C); auto; try (apply holds_term; auto); try lia. rewrite A, bind_ok.
      destruct (C57_scanpath home sp q1 s1 r dir1 Th S4 S6) as (pos2 & dir2 & q2 & s2 & T1 & T2 & T3 & T4 & T5 & T6 & T7 & T8); [lia|].
      rewrite S5, T1, bind_ok. cbv iota beta. rewrite T5.
      assert (Fu : zlen s + 1 < Z.of_nat (S (S (length sp)))).
      { pose proof (f_equal (@length Z) Esp) as Q. rewrite app_length in Q. cbn [length] in Q. unfold zlen. lia. }
      rewrite (old_loop_some opens home sp name n r Th Hn Ln _ q2 s2 (str_of dir2)); auto; try lia.
      * rewrite B. destruct (dirs (str_of home) s) as [|d1 ds] eqn:Eds.
        -- destruct S8 as [S8 S9]. rewrite S9 in T8. destruct T8 as [T8 T9]. rewrite S8, T8. reflexivity.
        -- destruct S8 as (S8 & S9 & S10). rewrite S8. rewrite S9 in T8. destruct ds as [|d2 ds].
           ++ destruct T8 as [T8 T9]. rewrite T8. reflexivity.
           ++ destruct T8 as (T8 & T9 & _). rewrite T8, T9. destruct d2 as [|x d2]; [exfalso; apply (proj1 (Hne [] (or_intror (or_introl eq_refl)))); auto|]. reflexivity.
      * apply holds_term; auto.
      * rewrite C. destruct (dirs (str_of home) s1) as [|d2 ds2]; destruct T8 as [-> T9]; [rewrite zlen_nil; lia|].
        destruct (dirs (str_of home) s) as [|d1 ds]; destruct S8 as [_ S9]; [discriminate|]. destruct S9 as [S9 _]. subst ds. apply Hne. right. left. auto.
      * rewrite C. intros e He. apply Hne. destruct (dirs (str_of home) s) as [|d1 ds].
        -- destruct S8 as [_ S9]. rewrite S9 in T8. destruct T8 as [_ T9]. rewrite T9 in He. auto.
        -- destruct S8 as (_ & S9 & _). rewrite S9 in T8. right. destruct ds as [|d2 ds]; [destruct T8 as [_ T9]; rewrite T9 in He; auto|].
           destruct T8 as (_ & T9 & _). rewrite T9 in He. right. auto.
      * intro Q. destruct (dirs (str_of home) s1) as [|d2 ds] eqn:E1; [destruct T8; auto|]. destruct T8 as (T8 & T9 & _). exfalso.
        assert (I2 : In d2 (dirs (str_of home) s)); [|apply (proj1 (Hne d2 I2)); congruence]. destruct (dirs (str_of home) s) as [|d1 ds1]; destruct S8 as (_ & S9); [congruence|destruct S9 as [S9 _]; rewrite <- S9; right; left; auto].
    + unfold ScanPath at 1. cbn [Z.eqb]. destruct dir as [|y [|y2 dir]]; [rewrite zlen_nil in Ld2; lia|rewrite zlen_cons, zlen_nil in Ld2; lia|].
      pose proof (setA_at [] y (y2 :: dir) 46) as SA. cbn [app] in SA. rewrite zlen_nil in SA. rewrite SA, bind_ok.
      pose proof (setA_at [46] y2 dir 0) as SB. cbn [app] in SB. change (zlen [46]) with 1 in SB. rewrite SB, bind_ok. cbv iota beta.
      rewrite !zlen_cons in *. pose proof (zlen_nonneg _ dir).
      destruct (mkfile (46 :: 0 :: dir) name path [46] n) as (path1 & A & B & C); auto.
      * exists dir. split; [reflexivity|]. cbn [In]. lia.
      * rewrite !zlen_cons. lia.
      * rewrite zlen_cons, zlen_nil. lia.
      * rewrite bind_ok, A, bind_ok. unfold ScanPath at 1. cbn [Z.eqb Z.add].
        pose proof (setA_at [] 46 (0 :: dir) 0) as SC. cbn [app] in SC. rewrite zlen_nil in SC. rewrite SC, !bind_ok. cbv iota beta.
        rewrite (old_loop_none opens home name n) by (auto; try (exists (0 :: dir); split; [reflexivity|intros []]); lia). rewrite B. reflexivity.
Qed.
Print Assumptions C57_old.

(** With an empty HOME an entry "~" ends the search: later directories are not tried. *)
Theorem C57_empty_home_refuted : exists opens home sp name dir path,
  Old opens home (Some sp) name dir path = Ok None /\ find opens (tries (str_of home) (Some (str_of sp)) (str_of name)) <> None.
Proof.
  exists (fun p => match p with 98 :: _ => true | _ => false end), [0], [97; 59; 126; 59; 98; 0], [120; 0], (repeat 0 256), (repeat 0 256).
  split; [vm_compute; reflexivity|]. vm_compute. discriminate.
Qed.
Print Assumptions C57_empty_home_refuted.

(** Non-vacuity: HOME = /h, search path " a b ;; ~/c;~u": x is tried as "a b/x", "/h/c/x" and "/u/x". *)
Example C57_nonvacuous :
  tries [47; 104] (Some [32; 97; 32; 98; 32; 59; 59; 32; 126; 47; 99; 59; 126; 117]) [120] =
    [[97; 32; 98; 47; 120]; [47; 104; 47; 99; 47; 120]; [47; 117; 47; 120]] /\
  Old (fun p => match p with 47 :: 117 :: _ => true | _ => false end) [47; 104; 0]
      (Some [32; 97; 32; 98; 32; 59; 59; 32; 126; 47; 99; 59; 126; 117; 0]) [120; 0] (repeat 0 256) (repeat 0 300) = Ok (Some [47; 117; 47; 120]).
Proof. split; vm_compute; reflexivity. Qed.
