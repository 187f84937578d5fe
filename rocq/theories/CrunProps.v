(** C91: a run of the compiler leaves the files of a module consistent. *)
From Verif Require Import Base CrunModel CrunSpec.

Lemma upd_same : forall d m k v, upd d m k v m k = v.
Proof. intros. unfold upd. rewrite Nat.eqb_refl. destruct k; reflexivity. Qed.
Lemma upd_mod : forall d m k v m' k', m' <> m -> upd d m k v m' k' = d m' k'.
Proof. intros. unfold upd. replace (m' =? m)%nat with false by (symmetry; now apply Nat.eqb_neq). reflexivity. Qed.
Lemma upd_kind : forall d m k v m' k', k' <> k -> upd d m k v m' k' = d m' k'.
Proof. intros. unfold upd. destruct (m' =? m)%nat; [|reflexivity]. destruct k, k'; try reflexivity; congruence. Qed.
Lemma apply_app : forall a b d, apply (a ++ b) d = apply b (apply a d).
Proof. intros. unfold apply. apply fold_left_app. Qed.
Definition about (m : nat) (ks : list kind) (e : eff) : Prop := match e with Del m' k | Put m' k _ => m' = m /\ In k ks end.
Lemma frame : forall es d m ks, Forall (about m ks) es -> forall m' k, m' <> m \/ ~ In k ks -> apply es d m' k = d m' k.
Proof.
  induction es as [|e es IH]; intros d m ks H m' k D; [reflexivity|]. inversion H as [|? ? A B]; subst. change (apply (e :: es) d) with (apply es (do1 d e)).
  rewrite (IH _ m ks B m' k D). destruct e as [m1 k1|m1 k1 c]; cbn [about] in A; destruct A as [-> A]; cbn [do1];
    (destruct D as [D|D]; [now apply upd_mod|apply upd_kind; intros ->; now apply D]).
Qed.
Lemma Forall_firstn : forall A (P : A -> Prop) n l, Forall P l -> Forall P (firstn n l).
Proof. intros A P n l H. rewrite Forall_forall in *. intros x I. apply H. rewrite <- (firstn_skipn n l). apply in_or_app. now left. Qed.
Lemma register_about : forall b m k c, Forall (about m [k]) (Register b m k c).
Proof.
  intros b m k c. unfold Register. destruct b.
  - constructor; [cbn; auto|]. apply Forall_forall. intros e I. apply in_map_iff in I. destruct I as (j & <- & _). cbn. auto.
  - constructor; [cbn; auto|constructor].
Qed.
Lemma about_mono : forall m ks ks' es, incl ks ks' -> Forall (about m ks) es -> Forall (about m ks') es.
Proof. intros m ks ks' es I H. eapply Forall_impl; [|exact H]. intros [m1 k|m1 k c]; cbn; intros [A B]; auto. Qed.
Lemma apply_register : forall b m k c d, apply (Register b m k c) d m k = Some c.
Proof.
  intros b m k c d. unfold Register. destruct b; [|apply upd_same].
  rewrite seq_S, map_app. cbn [map]. rewrite app_comm_cons, apply_app. cbn [apply fold_left do1]. rewrite Nat.add_0_l, firstn_all. apply upd_same.
Qed.

(** Stopping anywhere. *)
Definition stops (P : dir -> Prop) (es : list eff) (d : dir) : Prop := forall n, P (apply (firstn n es) d).
Lemma stops_app : forall P a b d, stops P a d -> stops P b (apply a d) -> stops P (a ++ b) d.
Proof.
  intros P a b d A B n. rewrite firstn_app, apply_app. destruct (Nat.le_gt_cases (length a) n) as [L|L].
  - rewrite (firstn_all2 a) by lia. apply B.
  - replace (n - length a)%nat with 0%nat by lia. cbn [firstn apply fold_left]. apply A.
Qed.
Lemma stops_end : forall P es d, stops P es d -> P (apply es d).
Proof. intros P es d H. specialize (H (length es)). now rewrite firstn_all in H. Qed.
Lemma stops_nil : forall (P : dir -> Prop) d, P d -> stops P [] d.
Proof. intros P d H n. now rewrite firstn_nil. Qed.
Lemma stops_one : forall (P : dir -> Prop) e d, P d -> P (do1 d e) -> stops P [e] d.
Proof. intros P e d A B [|n]; [exact A|]. cbn [firstn]. rewrite firstn_nil. exact B. Qed.
Lemma stops_frame : forall (P : dir -> Prop) es d m ks, (forall d', (forall m' k, m' <> m \/ ~ In k ks -> d' m' k = d m' k) -> P d') -> Forall (about m ks) es -> stops P es d.
Proof. intros P es d m ks H A n. apply H. intros m' k D. eapply frame; eauto. now apply Forall_firstn. Qed.

Section W.
Variable w : world.

(** The errors of the comparison. *)
Lemma ev_false : forall nsf esf evs x n, snd (fold_left (FPrintErr nsf esf) evs (x, n, false)) = false.
Proof. intros nsf esf. induction evs as [|b evs IH]; intros x n; [reflexivity|]. cbn [fold_left]. unfold FPrintErr at 2. destruct b; cbn [andb]; apply IH. Qed.
Lemma ev_some : forall evs, evs <> [] -> snd (fold_left (FPrintErr false false) evs (false, false, true)) = false.
Proof. intros [|b evs] H; [congruence|]. cbn [fold_left]. unfold FPrintErr at 2. destruct b; cbn [andb negb]; apply ev_false. Qed.
Lemma ev_new : forall esf evs x e, existsb negb evs = true -> snd (fold_left (FPrintErr false esf) evs (x, false, e)) = false.
Proof.
  intros esf. induction evs as [|b evs IH]; intros x e H; [discriminate|]. cbn [fold_left]. unfold FPrintErr at 2. destruct b; cbn [negb orb existsb] in *.
  - apply IH. exact H.
  - cbn [negb andb]. rewrite andb_false_r. apply ev_false.
Qed.
Lemma ev_flags : forall nsf esf evs x n e, fst (fold_left (FPrintErr nsf esf) evs (x, n, e)) = (x || existsb (fun b => b) evs, n || existsb negb evs).
Proof.
  intros nsf esf. induction evs as [|b evs IH]; intros x n e; cbn [fold_left existsb]; [now rewrite !orb_false_r|].
  unfold FPrintErr at 2. destruct b; rewrite IH; cbn [negb orb]; rewrite ?orb_true_r; reflexivity.
Qed.
Lemma ev_none : forall evs, existsb (fun b : bool => b) evs = false -> existsb negb evs = false -> evs = [].
Proof. intros [|b evs] A B; [reflexivity|]. cbn [existsb] in *. destruct b; discriminate. Qed.

(** What Export does. *)
Lemma find_found : forall d m y, find w d m = Some y <-> found w d m y.
Proof.
  intros d m y. unfold find, found. destruct (before w m) as [b|].
  - split; [intros H; left; congruence|]. intros [H|[[H _]|[H _]]]; congruence.
  - destruct (d m Sym) as [c|]; split; intros H.
    + right; left. auto.
    + destruct H as [H|[[_ H]|[_ [H _]]]]; congruence.
    + right; right. auto.
    + destruct H as [H|[[_ H]|[_ [_ H]]]]; congruence.
Qed.
Lemma Export_ok : forall o s d, let m := self s in let '(e1, noerr, ext, new) := Export w o s d in
  Forall (fun e => e = Del m Sym) e1 /\
  (noerr = true -> new || ext = false -> e1 = [] /\ exists y, found w d m y /\ describes w y s) /\
  (noerr = true -> forcenewsym o = false -> e1 = [] /\ (forall y, found w d m y -> foreign (compare w y (symtext s)) = false ->
     let v := compare w y (symtext s) in broken v = false /\ (newsf o = false -> existsb negb (events v) = false /\ (extsf o = false -> events v = [] /\ reffp v = false /\ new || ext = false)))) /\
  (forcenewsym o = true -> noerr = true /\ new = true /\ e1 = [Del m Sym]).
Proof.
  intros o s d m. unfold Export. fold m. destruct (forcenewsym o) eqn:F.
  { split; [repeat constructor|]. split; [discriminate|]. split; [discriminate|]. auto. }
  destruct (find w d m) as [y|] eqn:E.
  2:{ split; [constructor|]. split; [discriminate|]. split; [|discriminate]. intros _ _. split; [reflexivity|]. intros y Y. apply find_found in Y. congruence. }
  destruct (foreign (compare w y (symtext s))) eqn:FO.
  { split; [constructor|]. split; [discriminate|]. split; [|discriminate]. intros _ _. split; [reflexivity|]. intros y' Y. apply find_found in Y. congruence. }
  destruct (broken (compare w y (symtext s))) eqn:BR.
  { split; [constructor|]. split; [discriminate|]. split; [discriminate|]. discriminate. }
  pose proof (ev_flags (newsf o) (newsf o || extsf o) (events (compare w y (symtext s))) false false true) as FL.
  pose proof (ev_some (events (compare w y (symtext s)))) as S1. pose proof (ev_new (newsf o || extsf o) (events (compare w y (symtext s))) false true) as S2.
  destruct (fold_left _ _ _) as [[x n] e] eqn:FE. cbn [fst] in FL. injection FL as FX FN. cbn [orb] in FX, FN. rewrite orb_false_r.
  destruct (e && reffp (compare w y (symtext s))) eqn:RF.
  - apply andb_prop in RF. destruct RF as [-> RF]. destruct (newsf o || extsf o) eqn:ES.
    + split; [constructor|]. split; [discriminate|]. split; [|discriminate]. intros _ _. split; [reflexivity|]. intros y' Y _. apply find_found in Y. assert (y' = y) by congruence. subst y'.
      split; [auto|]. intros NS. split.
      * destruct (existsb negb _) eqn:EX; [|reflexivity]. rewrite NS in FE. specialize (S2 eq_refl). rewrite FE in S2. discriminate.
      * intros XS. rewrite NS, XS in ES. discriminate.
    + split; [repeat constructor|]. split; [discriminate|]. split; [discriminate|discriminate].
  - destruct e.
    + cbn [andb] in RF. split; [constructor|]. split; [|split; [|discriminate]].
      * intros _ H. apply orb_false_iff in H. destruct H as [-> ->]. split; [reflexivity|]. exists y. split; [now apply find_found|].
        split; [auto|]. split; [auto|]. split; [|auto]. now apply ev_none.
      * intros _ _. split; [reflexivity|]. intros y' Y _. apply find_found in Y. assert (y' = y) by congruence. subst y'. split; [auto|]. intros NS. rewrite NS in *. cbn [orb] in *. split.
        { destruct (existsb negb _) eqn:EX; [|reflexivity]. specialize (S2 eq_refl). rewrite FE in S2. discriminate. }
        intros XS. rewrite XS in *. destruct (events (compare w y (symtext s))) as [|b l] eqn:EV.
        { split; [reflexivity|]. split; [auto|]. rewrite FX, FN. reflexivity. }
        exfalso. specialize (S1 ltac:(discriminate)). rewrite FE in S1. discriminate.
    + split; [repeat constructor|]. split; [discriminate|]. split; [discriminate|discriminate].
Qed.

Lemma close_about : forall o s, Forall (about (self s) [Sym; Hdr; Body]) (CloseFiles w o s).
Proof.
  intros o s. unfold CloseFiles. destruct (negb (mainprog o)).
  - apply Forall_app. split; (eapply about_mono; [|apply register_about]); intros k; cbn; tauto.
  - constructor; [cbn; tauto|]. constructor; [cbn; tauto|]. eapply about_mono; [|apply register_about]. intros k; cbn; tauto.
Qed.
Lemma close_after : forall o s d, let d' := apply (CloseFiles w o s) d in let m := self s in
  d' m Body = Some (bodytext s) /\ (mainprog o = false -> d' m Hdr = Some (hdrtext s) /\ d' m Sym = d m Sym) /\ (mainprog o = true -> d' m Hdr = None /\ d' m Sym = None).
Proof.
  intros o s d d' m. subst d'. unfold CloseFiles. fold m. destruct (mainprog o); cbn [negb].
  - change (Del m Hdr :: Del m Sym :: Register (inplace w m Body) m Body (bodytext s)) with ([Del m Hdr; Del m Sym] ++ Register (inplace w m Body) m Body (bodytext s)).
    rewrite apply_app. split; [apply apply_register|]. split; [discriminate|]. intros _.
    rewrite !(frame _ _ m [Body] (register_about _ _ _ _)) by (right; cbn; intros [H|[]]; discriminate).
    cbn [apply fold_left do1]. split; [rewrite upd_kind by discriminate; apply upd_same|apply upd_same].
  - rewrite apply_app. split; [apply apply_register|]. split; [|discriminate]. intros _.
    rewrite !(frame _ _ m [Body] (register_about _ _ _ _)) by (right; cbn; intros [H|[]]; discriminate). split; [apply apply_register|].
    rewrite (frame _ _ m [Hdr] (register_about _ _ _ _)) by (right; cbn; intros [H|[]]; discriminate). reflexivity.
Qed.
Lemma dels_about : forall m ks e1, In Sym ks -> Forall (fun e => e = Del m Sym) e1 -> Forall (about m ks) e1.
Proof. intros m ks e1 I H. eapply Forall_impl; [|exact H]. intros e ->. cbn. auto. Qed.
Lemma Module_about : forall o s d, Forall (about (self s) [Sym; Hdr; Body; Obj]) (fst (Module w o s d)).
Proof.
  intros o s d. unfold Module. destruct (front_ok s); [|constructor]. cbn [negb]. pose proof (Export_ok o s d) as X. cbv zeta in X.
  destruct (Export w o s d) as [[[e1 noerr] ext] new]. destruct X as (X & _). assert (A : Forall (about (self s) [Sym; Hdr; Body; Obj]) e1) by (apply dels_about; [cbn; tauto|auto]).
  destruct noerr; cbn [negb]; [|exact A].
  assert (B : Forall (about (self s) [Sym; Hdr; Body; Obj]) (e1 ++ [Del (self s) Obj])) by (apply Forall_app; split; [auto|repeat constructor; cbn; tauto]).
  destruct (gen_ok s); cbn [negb fst].
  - apply Forall_app. split; [exact B|]. apply Forall_app. split.
    + destruct (mainprog o); [repeat constructor; cbn; tauto|]. destruct (new || ext); [|constructor]. eapply about_mono; [|apply register_about]. intros k; cbn; tauto.
    + eapply about_mono; [|apply close_about]. intros k; cbn; tauto.
  - apply Forall_app. split; [exact B|]. repeat constructor; cbn; tauto.
Qed.
Lemma Assemble_about : forall o s d, Forall (about (self s) [Obj]) (fst (Assemble w o s d)).
Proof. intros o s d. unfold Assemble. destruct (dontasm o); [constructor|]. destruct (_ || _); [|constructor]. destruct (cc w d (self s)); repeat constructor; cbn; tauto. Qed.

Variable K : src -> Prop.
Lemma consistent_ext : forall d d' m, (forall k, d' m k = d m k) -> consistent w K d m -> consistent w K d' m.
Proof. intros d d' m E H c C. rewrite E in C. destruct (H c C) as (s & d0 & A). exists s, d0. rewrite !E. exact A. Qed.
Lemma consistent_none : forall d m, d m Obj = None -> consistent w K d m.
Proof. intros d m H c C. congruence. Qed.
Lemma consistent_del : forall d m, consistent w K d m -> consistent w K (upd d m Sym None) m.
Proof.
  intros d m H c C. rewrite upd_kind in C by discriminate. destruct (H c C) as (s & d0 & A0 & A1 & A2 & A3 & A4 & A5 & A6). exists s, d0.
  rewrite !(upd_kind d m Sym None m Body), !(upd_kind d m Sym None m Hdr) by discriminate. rewrite upd_same.
  split; [auto|]. split; [auto|]. split; [auto|]. split; [auto|]. split; [auto|]. split; [auto|].
  destruct A6 as [[A6 _]|[A6 _]]; [left; split; [auto|discriminate]|right; auto].
Qed.
Hypothesis refl : forall s, describes w (symtext s) s.
Lemma module_stops : forall o s d, before w (self s) = None -> consistent w K d (self s) ->
  stops (fun d => consistent w K d (self s)) (fst (Module w o s d)) d /\
  (snd (Module w o s d) = true -> let d' := apply (fst (Module w o s d)) d in let m := self s in
    d' m Obj = None /\ d' m Body = Some (bodytext s) /\ (d' m Hdr = Some (hdrtext s) /\ (forall y, d' m Sym = Some y -> describes w y s) \/ d' m Hdr = None /\ d' m Sym = None)).
Proof.
  intros o s d NB C. set (m := self s) in *. unfold Module. fold m. destruct (front_ok s); cbn [negb]; [|split; [apply stops_nil; exact C|discriminate]].
  pose proof (Export_ok o s d) as X. cbv zeta in X. fold m in X. destruct (Export w o s d) as [[[e1 noerr] ext] new]. destruct X as (X1 & X2 & _ & X4).
  assert (S1 : forall e1 d, Forall (fun e => e = Del m Sym) e1 -> consistent w K d m -> stops (fun d => consistent w K d m) e1 d).
  { clear. intros e1. induction e1 as [|e e1 IH]; intros d H C; [now apply stops_nil|]. inversion H; subst.
    change (Del m Sym :: e1) with ([Del m Sym] ++ e1). apply stops_app; [apply stops_one; [auto|now apply consistent_del]|]. apply IH; [auto|now apply consistent_del]. }
  specialize (S1 e1 d X1 C). destruct noerr; cbn [negb]; [|split; [exact S1|discriminate]].
  set (d1 := apply e1 d). assert (O1 : apply [Del m Obj] d1 m Obj = None) by apply upd_same.
  assert (S2 : stops (fun d => consistent w K d m) (e1 ++ [Del m Obj]) d).
  { apply stops_app; [exact S1|]. apply stops_one; [exact (stops_end _ _ _ S1)|apply consistent_none; exact O1]. }
  assert (REST : forall es d, d m Obj = None -> Forall (about m [Sym; Hdr; Body]) es -> stops (fun d => consistent w K d m) es d /\ apply es d m Obj = None).
  { clear. intros es d O A. split.
    - eapply stops_frame; [|exact A]. intros d' E. apply consistent_none. rewrite E; [exact O|]. right. cbn. intros [H|[H|[H|[]]]]; discriminate.
    - rewrite (frame _ _ _ _ A); [exact O|]. right. cbn. intros [H|[H|[H|[]]]]; discriminate. }
  assert (D2 : apply (e1 ++ [Del m Obj]) d = apply [Del m Obj] d1) by apply apply_app.
  destruct (gen_ok s); cbn [negb fst snd].
  - set (e3 := if mainprog o then [Del m Sym] else if new || ext then Register (inplace w m Sym) m Sym (symtext s) else []).
    assert (A3 : Forall (about m [Sym]) e3).
    { unfold e3. destruct (mainprog o); [repeat constructor; cbn; tauto|]. destruct (new || ext); [apply register_about|constructor]. }
    assert (A4 : Forall (about m [Sym; Hdr; Body]) (e3 ++ CloseFiles w o s)).
    { apply Forall_app. split; [|apply close_about]. eapply about_mono; [|exact A3]. intros k; cbn; tauto. }
    destruct (REST (e3 ++ CloseFiles w o s) (apply [Del m Obj] d1) O1 A4) as [R1 R2].
    split; [apply stops_app; [exact S2|rewrite D2; exact R1]|]. intros _. cbv zeta. rewrite apply_app, D2. split; [exact R2|].
    rewrite apply_app. destruct (close_after o s (apply e3 (apply [Del m Obj] d1))) as (C1 & C2 & C3). fold m in C1, C2, C3. split; [exact C1|].
    destruct (mainprog o) eqn:MP.
    + right. now apply C3.
    + left. destruct (C2 eq_refl) as [H1 H2]. split; [exact H1|]. intros y Y. rewrite H2 in Y. unfold e3 in Y. destruct (new || ext) eqn:NE.
      * rewrite apply_register in Y. injection Y as <-. apply refl.
      * destruct (X2 eq_refl eq_refl) as (-> & y0 & F0 & D0). cbn [apply fold_left do1] in Y. unfold d1 in Y. cbn [apply fold_left] in Y. rewrite upd_kind in Y by discriminate.
        unfold found in F0. rewrite NB in F0. destruct F0 as [F0|[[_ F0]|[_ [F0 _]]]]; [discriminate| |congruence]. assert (y0 = y) by congruence. now subst.
  - split; [|discriminate]. apply stops_app; [exact S2|]. rewrite D2. apply REST; [exact O1|]. repeat constructor; cbn; tauto.
Qed.
Lemma stops_other : forall m m' ks es d, m' <> m -> Forall (about m ks) es -> consistent w K d m' -> stops (fun d => consistent w K d m') es d.
Proof. intros m m' ks es d N A C. eapply stops_frame; [|exact A]. intros d' E. eapply consistent_ext; [|exact C]. intros k. apply E. now left. Qed.
Lemma translate_stops : (forall m, before w m = None) -> forall us d, (forall s, In s (map snd us) -> K s) -> (forall m, consistent w K d m) -> stops (fun d => forall m, consistent w K d m) (Translate w us d) d.
Proof.
  intros NB. induction us as [|[o s] us IH]; intros d KS C; [now apply stops_nil|]. cbn [Translate].
  destruct (module_stops o s d (NB _) (C _)) as [M1 M2]. pose proof (Module_about o s d) as MA. destruct (Module w o s d) as [e1 done]. cbn [fst snd] in *.
  assert (S1 : stops (fun d => forall m, consistent w K d m) e1 d).
  { intros n m. destruct (Nat.eq_dec m (self s)) as [->|N]; [apply M1|]. eapply stops_other; eauto. }
  destruct done; cbn [negb]; [|exact S1]. specialize (M2 eq_refl). cbv zeta in M2. destruct M2 as (B1 & B2 & B3).
  set (d1 := apply e1 d) in *. pose proof (stops_end _ _ _ S1) as C1. cbv beta in C1. fold d1 in C1.
  pose proof (Assemble_about o s d1) as AA. unfold Assemble in AA |- *. destruct (dontasm o); cbn [negb app fst] in *.
  { apply stops_app; [exact S1|]. apply IH; [intros; apply KS; now right|]. exact C1. }
  destruct (dontlink o || negb (mainprog o)); cbn [negb app fst] in *.
  2:{ apply stops_app; [exact S1|]. apply IH; [intros; apply KS; now right|]. exact C1. }
  destruct (cc w d1 (self s)) as [c|] eqn:CC; cbn [negb app fst] in *.
  2:{ rewrite app_nil_r. exact S1. }
  assert (C2 : forall m, consistent w K (apply [Put (self s) Obj c] d1) m).
  { intros m. destruct (Nat.eq_dec m (self s)) as [->|N].
    - intros c' C'. cbn [apply fold_left do1] in *. rewrite upd_same in C'. injection C' as <-. exists s, d1. rewrite !upd_kind by discriminate.
      split; [apply KS; now left|]. split; [auto|]. split; [auto|]. split; [auto|]. split; [auto|]. split; auto.
    - eapply consistent_ext; [|apply (C1 m)]. intros k. apply (frame _ _ _ _ AA). now left. }
  apply stops_app; [exact S1|]. change (Put (self s) Obj c :: Translate w us (apply [Put (self s) Obj c] d1)) with ([Put (self s) Obj c] ++ Translate w us (apply [Put (self s) Obj c] d1)).
  apply stops_app; [apply stops_one; [exact C1|exact C2]|]. apply IH; [intros; apply KS; now right|]. exact C2.
Qed.
End W.

(** Whatever has been compiled, and wherever a run was stopped: an object file belongs to the C file, the header and the symbol file beside it.
    Partial: no directory before the current one on the search path holds symbol files. *)
Theorem C91_object_partial : forall w d0, (forall s, describes w (symtext s) s) -> (forall m, before w m = None) -> (forall m, d0 m Obj = None) ->
  forall ss d, history w d0 ss d -> forall m, consistent w (fun s => In s ss) d m.
Proof.
  intros w d0 R NB O ss d H. induction H as [|ss d us n H IH]; [intros m; apply consistent_none; apply O|].
  refine (translate_stops w (fun s => In s (map snd us ++ ss)) R NB us d _ _ n).
  - intros s I. apply in_or_app. now left.
  - intros m c C. destruct (IH m c C) as (s & d1 & I & X). exists s, d1. split; [|exact X]. apply in_or_app. now right.
Qed.

(** A run changes no files but those of the modules named in it, wherever it is stopped. *)
Theorem C91_others : forall w us d n m k, ~ In m (map (fun u => self (snd u)) us) -> apply (firstn n (Translate w us d)) d m k = d m k.
Proof.
  intros w us d n m k N. revert n. change (stops (fun d' => d' m k = d m k) (Translate w us d) d).
  assert (G : forall us d1, ~ In m (map (fun u => self (snd u)) us) -> d1 m k = d m k -> stops (fun d' => d' m k = d m k) (Translate w us d1) d1); [|now apply G].
  clear us N. induction us as [|[o s] us IH]; intros d1 N E; [now apply stops_nil|]. cbn [map In snd] in N. cbn [Translate].
  assert (F : forall ks es d1, Forall (about (self s) ks) es -> d1 m k = d m k -> stops (fun d' => d' m k = d m k) es d1).
  { intros ks es d2 A E2. eapply stops_frame; [|exact A]. intros d' E'. rewrite E'; [exact E2|]. left. intros X. apply N. now left. }
  pose proof (Module_about w o s d1) as MA. destruct (Module w o s d1) as [e1 done]. cbn [fst] in MA.
  pose proof (F _ _ _ MA E) as S1. destruct done; cbn [negb]; [|exact S1]. pose proof (Assemble_about w o s (apply e1 d1)) as AA.
  destruct (Assemble w o s (apply e1 d1)) as [e2 done]. cbn [fst] in AA. pose proof (F _ _ _ AA (stops_end _ _ _ S1)) as S2.
  destruct done; cbn [negb]; (apply stops_app; [exact S1|]); [|exact S2].
  apply stops_app; [exact S2|]. apply IH; [tauto|]. exact (stops_end _ _ _ S2).
Qed.

(** A source with errors changes nothing.  If its interface is refused the header, the C file and the object file stay, but the symbol file may be lost;
    if only the code generator reports errors, the header and the C file stay. *)
Theorem C91_rejected_partial : forall w o s us d, snd (Module w o s d) = false -> forall n,
  let d' := apply (firstn n (Translate w ((o, s) :: us) d)) d in
  (front_ok s = false -> d' = d) /\
  (forall m k, m <> self s \/ k = Hdr \/ k = Body -> d' m k = d m k) /\
  (d' (self s) Sym = d (self s) Sym \/ d' (self s) Sym = None) /\
  (d' (self s) Obj = d (self s) Obj \/ d' (self s) Obj = None /\ gen_ok s = false).
Proof.
  intros w o s us d H n d'. subst d'. cbn [Translate]. unfold Module in *. destruct (front_ok s); cbn [negb] in *.
  2:{ cbn [negb]. rewrite firstn_nil. repeat split; auto. }
  split; [discriminate|]. pose proof (Export_ok w o s d) as X. cbv zeta in X. destruct (Export w o s d) as [[[e1 noerr] ext] new]. destruct X as (X & _).
  set (m := self s) in *.
  assert (S1 : stops (fun d' => d' m Sym = d m Sym \/ d' m Sym = None) e1 d /\ apply e1 d = apply e1 d).
  { split; [|reflexivity]. assert (G : forall d1, d1 m Sym = d m Sym \/ d1 m Sym = None -> stops (fun d' => d' m Sym = d m Sym \/ d' m Sym = None) e1 d1); [|now apply G; left].
    clear - X. induction e1 as [|e e1 IH]; intros d1 E; [now apply stops_nil|]. inversion X; subst. change (Del m Sym :: e1) with ([Del m Sym] ++ e1).
    assert (E2 : do1 d1 (Del m Sym) m Sym = d m Sym \/ do1 d1 (Del m Sym) m Sym = None) by (right; apply upd_same).
    apply stops_app; [now apply stops_one|]. apply IH; auto. }
  destruct S1 as [S1 _]. assert (A1 : Forall (about m [Sym]) e1) by (apply dels_about; [now left|exact X]).
  destruct noerr; cbn [negb snd] in *.
  - destruct (gen_ok s); cbn [negb snd] in *; [discriminate|].
    assert (AA : Forall (about m [Sym; Obj]) ((e1 ++ [Del m Obj]) ++ [Del m Sym])).
    { rewrite <- app_assoc. apply Forall_app. split; [eapply about_mono; [|exact A1]; intros k; cbn; tauto|]. repeat constructor; cbn; tauto. }
    split; [|split].
    + intros m' k D. apply (frame _ _ m [Sym; Obj]); [now apply Forall_firstn|]. destruct D as [D|D]; [now left|right]. cbn. intros [E|[E|[]]]; subst; destruct D; discriminate.
    + cbv beta. revert n. change (stops (fun d' => d' m Sym = d m Sym \/ d' m Sym = None) ((e1 ++ [Del m Obj]) ++ [Del m Sym]) d).
      rewrite <- app_assoc. apply stops_app; [exact S1|]. pose proof (stops_end _ _ _ S1) as E1. cbv beta in E1. set (d1 := apply e1 d) in *. clearbody d1.
      assert (E2 : do1 d1 (Del m Obj) m Sym = d m Sym \/ do1 d1 (Del m Obj) m Sym = None) by (cbn [do1]; rewrite upd_kind by discriminate; exact E1).
      apply stops_app; [now apply stops_one|]. apply stops_one; [exact E2|]. right. apply upd_same.
    + cbv beta. revert n. change (stops (fun d' => d' m Obj = d m Obj \/ d' m Obj = None /\ false = false) ((e1 ++ [Del m Obj]) ++ [Del m Sym]) d).
      rewrite <- app_assoc. assert (F1 : stops (fun d' => d' m Obj = d m Obj \/ d' m Obj = None /\ false = false) e1 d).
      { intros n. left. apply (frame _ _ m [Sym]); [now apply Forall_firstn|]. right. cbn. intros [E|[]]; discriminate. }
      apply stops_app; [exact F1|]. pose proof (stops_end _ _ _ F1) as E1. cbv beta in E1. set (d1 := apply e1 d) in *. clearbody d1.
      apply stops_app; [apply stops_one; [exact E1|right; split; [apply upd_same|reflexivity]]|].
      assert (E2 : apply [Del m Obj] d1 m Obj = None) by apply upd_same.
      apply stops_one; right; split; auto. cbn [do1]. rewrite upd_kind by discriminate. exact E2.
  - split; [|split].
    + intros m' k D. apply (frame _ _ m [Sym]); [now apply Forall_firstn|]. destruct D as [D|D]; [now left|right]. cbn. intros [E|[]]; subst; destruct D; discriminate.
    + apply S1.
    + left. apply (frame _ _ m [Sym]); [now apply Forall_firstn|]. right. cbn. intros [E|[]]; discriminate.
Qed.

(** After a translation the C file and the header are those of the source, there is no old object file, and clients find a symbol file that describes the
    source; a main program has no header and no symbol file.  Partial: the symbol file is found first in the current directory. *)
Theorem C91_translated_partial : forall w o s d, (forall s, describes w (symtext s) s) -> before w (self s) = None -> snd (Module w o s d) = true ->
  let d' := apply (fst (Module w o s d)) d in let m := self s in
  d' m Body = Some (bodytext s) /\ d' m Obj = None /\
  (mainprog o = false -> d' m Hdr = Some (hdrtext s) /\ exists y, found w d' m y /\ describes w y s) /\
  (mainprog o = true -> d' m Hdr = None /\ d' m Sym = None).
Proof.
  intros w o s d R NB H d' m. subst d'. unfold Module in *. fold m in H |- *. destruct (front_ok s); cbn [negb snd] in *; [|discriminate].
  pose proof (Export_ok w o s d) as X. cbv zeta in X. fold m in X. destruct (Export w o s d) as [[[e1 noerr] ext] new]. destruct X as (X1 & X2 & _).
  destruct noerr; cbn [negb snd] in *; [|discriminate]. destruct (gen_ok s); cbn [negb snd] in *; [|discriminate]. cbn [fst].
  set (e3 := if mainprog o then [Del m Sym] else if new || ext then Register (inplace w m Sym) m Sym (symtext s) else []).
  rewrite !apply_app. set (d2 := apply [Del m Obj] (apply e1 d)).
  destruct (close_after w o s (apply e3 d2)) as (C1 & C2 & C3). fold m in C1, C2, C3. split; [exact C1|].
  assert (A3 : Forall (about m [Sym]) e3).
  { unfold e3. destruct (mainprog o); [repeat constructor; cbn; tauto|]. destruct (new || ext); [apply register_about|constructor]. }
  split; [|split; [|exact C3]].
  - rewrite (frame _ _ m [Sym; Hdr; Body] (close_about w o s)) by (right; cbn; intros [E|[E|[E|[]]]]; discriminate).
    rewrite (frame _ _ m [Sym] A3) by (right; cbn; intros [E|[]]; discriminate). apply upd_same.
  - intros MP. destruct (C2 MP) as [H1 H2]. split; [exact H1|]. unfold found. fold m in NB. rewrite H2, NB. unfold e3 in *. rewrite MP in *. destruct (new || ext) eqn:NE.
    + rewrite apply_register. exists (symtext s). split; [right; left; auto|apply R].
    + destruct (X2 eq_refl eq_refl) as (-> & y & F & D). exists y. split; [|exact D]. unfold found in F. rewrite NB in F.
      unfold d2. cbn [apply fold_left do1]. rewrite upd_kind by discriminate. exact F.
Qed.

(** Without the options for new symbol files a translation succeeds only if the interface clients know stays as it is, and the symbol file is not touched;
    with the option for extensions only, every change is an extension. *)
Theorem C91_protected : forall w o s d y, snd (Module w o s d) = true -> newsf o = false -> forcenewsym o = false ->
  found w d (self s) y -> foreign (compare w y (symtext s)) = false ->
  (forall b, In b (events (compare w y (symtext s))) -> b = true) /\
  (extsf o = false -> describes w y s /\ (mainprog o = false -> forall n, apply (firstn n (fst (Module w o s d))) d (self s) Sym = d (self s) Sym)).
Proof.
  intros w o s d y H NS NF F FO. unfold Module in *. set (m := self s) in *. destruct (front_ok s); cbn [negb snd] in *; [|discriminate].
  pose proof (Export_ok w o s d) as X. cbv zeta in X. fold m in X. destruct (Export w o s d) as [[[e1 noerr] ext] new]. destruct X as (X1 & X2 & X3 & _).
  destruct noerr; cbn [negb snd] in *; [|discriminate]. destruct (gen_ok s); cbn [negb snd] in *; [|discriminate]. cbn [fst].
  destruct (X3 eq_refl NF) as (-> & X5). destruct (X5 y F FO) as (BR & X6). destruct (X6 NS) as (EX & X7). split.
  - intros b I. destruct b; [reflexivity|]. exfalso. assert (T : existsb negb (events (compare w y (symtext s))) = true) by (apply existsb_exists; exists false; auto). congruence.
  - intros XS. destruct (X7 XS) as (EV & RF & NE). split; [repeat split; auto|]. intros MP n. rewrite MP, NE. cbn [app].
    unfold CloseFiles. fold m. rewrite MP. cbn [negb].
    apply (frame _ _ m [Obj; Hdr; Body]); [|right; cbn; intros [E|[E|[E|[]]]]; discriminate]. apply Forall_firstn. constructor; [cbn; tauto|].
    apply Forall_app. split; (eapply about_mono; [|apply register_about]); intros k; cbn; tauto.
Qed.

(** An example: a symbol file has a tag (7) in front and describes every source with the same text. *)
Definition diff (a b : text) : verdict :=
  {| foreign := if list_eq_dec Z.eq_dec a b then false else negb (hd 0 a =? 7); broken := false; events := if list_eq_dec Z.eq_dec a b then [] else [false]; reffp := false |}.
Lemma diff_refl : forall s, let v := diff (symtext s) (symtext s) in foreign v = false /\ broken v = false /\ events v = [] /\ reffp v = false.
Proof. intros s. unfold diff. cbn. destruct (list_eq_dec Z.eq_dec (symtext s) (symtext s)); [auto|congruence]. Qed.
Definition w0 : world := {| before := fun _ => None; after := fun _ => None; compare := diff; cc := fun d m => d m Body; inplace := fun _ _ => true |}.
Definition plain : opts := {| newsf := false; extsf := false; forcenewsym := false; mainprog := false; dontasm := false; dontlink := true |}.
Definition s1 : src := {| self := 1; front_ok := true; symtext := [7; 1]; hdrtext := [11]; bodytext := [21]; gen_ok := true |}.
Definition s2 : src := {| self := 1; front_ok := true; symtext := [7; 2]; hdrtext := [12]; bodytext := [22]; gen_ok := true |}.
Definition none : dir := fun _ _ => None.

(** The refusal of a changed interface loses the symbol file, so that the same command succeeds when it is repeated. *)
Theorem C91_refused_refuted : exists w o s d, (forall m, before w m = None) /\ newsf o = false /\ extsf o = false /\ forcenewsym o = false /\
  d (self s) Sym <> None /\ snd (Module w o s d) = false /\
  let d' := apply (Translate w [(o, s)] d) d in d' (self s) Sym = None /\ snd (Module w o s d') = true.
Proof.
  exists w0, plain, s2, (apply (Translate w0 [(plain, s1)] none) none). split; [reflexivity|]. split; [reflexivity|]. split; [reflexivity|]. split; [reflexivity|].
  split; [vm_compute; discriminate|]. split; [vm_compute; reflexivity|]. cbv zeta. split; vm_compute; reflexivity.
Qed.
(** If another directory comes first on the search path, an object file may lie beside a symbol file that does not describe it. *)
Theorem C91_object_refuted : exists w d, (forall s, describes w (symtext s) s) /\ (forall m, d m Obj = None) /\
  exists ss d', history w d ss d' /\ ~ consistent w (fun s => In s ss) d' 1%nat.
Proof.
  set (w := {| before := fun _ => Some [7; 2]; after := fun _ => None; compare := diff; cc := fun d m => d m Body; inplace := fun _ _ => true |}).
  set (d := fun m k => match m, k with 1%nat, Sym => Some [7; 1] | _, _ => None end : option text).
  exists w, d. split; [apply diff_refl|]. split; [intros [|[|m]]; reflexivity|].
  exists [s2], (apply (firstn 100 (Translate w [(plain, s2)] d)) d). split; [apply (Command w d [] d [(plain, s2)]); apply Start|].
  intros H. destruct (H [22]) as (s & d0 & [<-|[]] & _ & _ & _ & _ & _ & H1); [vm_compute; reflexivity|].
  destruct H1 as [[_ H2]|[H1 _]]; [|vm_compute in H1; discriminate].
  destruct (H2 [7; 1]) as (_ & _ & H3 & _); vm_compute in *; congruence.
Qed.
(** A translation may leave no symbol file beside the object file, because an equal one was found in a library. *)
Theorem C91_local_refuted : exists w o s d, (forall m, before w m = None) /\ mainprog o = false /\ snd (Module w o s d) = true /\
  let d' := apply (Translate w [(o, s)] d) d in d' (self s) Obj <> None /\ d' (self s) Sym = None.
Proof.
  exists {| before := fun _ => None; after := fun _ => Some [7; 2]; compare := diff; cc := fun d m => d m Body; inplace := fun _ _ => true |}, plain, s2, none.
  split; [reflexivity|]. split; [reflexivity|]. split; [vm_compute; reflexivity|]. cbv zeta. split; vm_compute; [discriminate|reflexivity].
Qed.
(** Non-vacuity: a module is compiled, then recompiled with another body; then a change of its interface is allowed by the option -s. *)
Definition s3 : src := {| self := 1; front_ok := true; symtext := [7; 1]; hdrtext := [11]; bodytext := [23]; gen_ok := true |}.
Definition minus_s : opts := {| newsf := true; extsf := false; forcenewsym := false; mainprog := false; dontasm := false; dontlink := true |}.
Example C91_met : (forall s, describes w0 (symtext s) s) /\
  let d1 := apply (Translate w0 [(plain, s1)] none) none in let d2 := apply (Translate w0 [(plain, s3)] d1) d1 in let d3 := apply (Translate w0 [(minus_s, s2)] d2) d2 in
  (map (d1 1%nat) [Sym; Hdr; Body; Obj] = [Some [7; 1]; Some [11]; Some [21]; Some [21]] /\
         map (d2 1%nat) [Sym; Hdr; Body; Obj] = [Some [7; 1]; Some [11]; Some [23]; Some [23]] /\
         map (d3 1%nat) [Sym; Hdr; Body; Obj] = [Some [7; 2]; Some [12]; Some [22]; Some [22]] /\
         found w0 d1 1 [7; 1] /\ snd (Module w0 plain s3 d1) = true /\ snd (Module w0 plain s2 d2) = false /\
         (length (Translate w0 [(plain, s1)] none) > 8)%nat /\ (apply (firstn 3 (Translate w0 [(plain, s1)] none)) none) 1%nat Sym = Some []).
Proof.
  split; [apply diff_refl|]. cbv zeta. split; [vm_compute; reflexivity|]. split; [vm_compute; reflexivity|]. split; [vm_compute; reflexivity|].
  split; [right; left; split; vm_compute; reflexivity|]. split; [vm_compute; reflexivity|]. split; [vm_compute; reflexivity|].
  split; [vm_compute; lia|vm_compute; reflexivity].
Qed.
Print Assumptions C91_object_partial. Print Assumptions C91_others. Print Assumptions C91_rejected_partial. Print Assumptions C91_translated_partial.
Print Assumptions C91_protected. Print Assumptions C91_refused_refuted. Print Assumptions C91_object_refuted. Print Assumptions C91_local_refuted. Print Assumptions C91_met.
