(** Symbol files: several modules imported one after the other. *)
From Verif Require Import Base SymModel SymBytes SymSpec SymImport.

Lemma mod_index_at : forall l k n t i, NoDup (map fst l) -> nth_error l k = Some (n, t) -> mod_index n l i = Some (i + k)%nat.
Proof.
  induction l as [| [n0 t0] l IH]; intros [| k] n t i D E; cbn [nth_error] in E; try discriminate; cbn [mod_index].
  - inversion E; subst. destruct (list_eq_dec Z.eq_dec n n); [f_equal; lia | contradiction].
  - cbn [map fst] in D. apply NoDup_cons_iff in D as [D1 D2]. destruct (list_eq_dec Z.eq_dec n n0) as [-> |].
    + exfalso. apply D1. apply in_map_iff. exists (n0, t). split; [reflexivity | apply (nth_error_In _ _ E)].
    + rewrite (IH k n t (S i) D2 E). f_equal. lia.
Qed.
Lemma mod_index_kept : forall l l' n m, NoDup (map fst l') -> (forall k mt, nth_error l k = Some mt -> exists t, nth_error l' k = Some (fst mt, t)) -> mod_index n l 0 = Some m -> mod_index n l' 0 = Some m.
Proof.
  intros l l' n m D S E. destruct (mod_index_nth _ _ _ _ E) as (t & N). rewrite Nat.sub_0_r in N. destruct (S _ _ N) as (t' & N'). exact (mod_index_at _ _ _ _ 0 D N').
Qed.

(** The types of [g'] the client knows. *)
Definition known (g' : graph) (ms : list (name * tree obj)) (j : nat) : option nat :=
  if list_eq_dec Z.eq_dec (sname (str_of g' j)) [] then None
  else match look ms (modname g' j) (sname (str_of g' j)) with Some o => match okind o with KTyp (TS s) => Some s | _ => None end | None => None end.

Section Next.
Variables (g g' : graph) (H : fld -> list Z) (self : name) (K K' : nat -> option nat) (ts ts' : list istr) (ms ms' : list (name * tree obj)) (m : nat) (rho : nat -> option nat).
Hypothesis WF : wf g H.
Hypothesis C : client g self K ts ms.
Hypothesis C' : client g' self K' ts ms.
Hypothesis S : sees g H K ts ms ts' ms' m rho.
Hypothesis CO : consistent g g'.
Local Notation fits j x := (iname x = sname (str_of g' j) /\ mod_index (modname g' j) ms' 0 = Some (imno x) /\
  isize x = ssize (str_of g' j) /\ iform x = form_of (sshape (str_of g' j)) /\ icomp x = comp_of (sshape (str_of g' j))).

Lemma same_by_name : forall i j s, sname (str_of g i) <> [] -> sname (str_of g i) = sname (str_of g' j) -> modname g i = modname g' j ->
  (match rho i with Some s => Some s | None => K i end) = Some s -> exists x, nth_error ts' s = Some x /\ fits j x.
Proof.
  intros i j s NE EN EM R. destruct CO as (_ & CS & _). destruct (CS i j NE EN EM) as (E1 & E2 & E3). destruct (rho i) as [s0 |] eqn:RI.
  - inversion R; subst s0. destruct (s_types _ _ _ _ _ _ _ _ _ S i s RI) as (x & N & A1 & A2 & _ & A4 & A5 & A6 & _). exists x. split; [exact N |]. rewrite <- EN, <- EM, <- E1, <- E2, <- E3.
    split; [exact A1 |]. split; [| auto]. destruct (nth_error ms' (imno x)) as [[n t] |] eqn:NM; [| discriminate]. cbn [option_map fst] in A2. inversion A2; subst n. apply (mod_index_at _ _ _ _ 0 (s_nodup _ _ _ _ _ _ _ _ _ S) NM).
  - destruct (c_known _ _ _ _ _ C i s R) as (_ & x & N & A1 & A2 & A3 & A4 & A5).
    assert (NR : forall i', rho i' <> Some s).
    { intros i' R'. pose proof (s_known _ _ _ _ _ _ _ _ _ S i' s R') as Q. destruct (K i') as [s' |] eqn:KI.
      - subst s'. destruct (c_known _ _ _ _ _ C i' s KI) as (NE' & x' & N' & B1 & B2 & _). rewrite N in N'. inversion N'; subst x'.
        assert (i = i'); [| congruence]. apply (wf_names _ _ WF); [exact NE | congruence |].
        destruct (mod_index_nth _ _ _ _ A2) as (t1 & M1). destruct (mod_index_nth _ _ _ _ B2) as (t2 & M2). congruence.
      - assert (s < length ts)%nat by (apply nth_error_Some; congruence). lia. }
    exists x. split; [apply (s_frame _ _ _ _ _ _ _ _ _ S s x N NR) |]. rewrite <- EN, <- EM, <- E1, <- E2, <- E3. split; [exact A1 |]. split; [| auto].
    apply (mod_index_kept ms ms' _ _ (s_nodup _ _ _ _ _ _ _ _ _ S) (s_modules _ _ _ _ _ _ _ _ _ S) A2).
Qed.

(** Either the name was there before, or it is that of a type just read. *)
Lemma look_cases : forall j o, sname (str_of g' j) <> [] -> look ms' (modname g' j) (sname (str_of g' j)) = Some o ->
  (exists s, K' j = Some s /\ okind o = KTyp (TS s)) \/
  (exists i s, sname (str_of g i) <> [] /\ sname (str_of g i) = sname (str_of g' j) /\ modname g i = modname g' j /\ (match rho i with Some s => Some s | None => K i end) = Some s /\ okind o = KTyp (TS s)).
Proof.
  intros j o NE L.
  assert (Q : forall i, sname (str_of g i) = sname (str_of g' j) -> modname g i = modname g' j ->
    exists i s, sname (str_of g i) <> [] /\ sname (str_of g i) = sname (str_of g' j) /\ modname g i = modname g' j /\ (match rho i with Some s => Some s | None => K i end) = Some s /\ okind o = KTyp (TS s)).
  { intros i EN EM. assert (NI : sname (str_of g i) <> []) by congruence. pose proof (s_names _ _ _ _ _ _ _ _ _ S i NI) as P. rewrite EN, EM, L in P.
    destruct (match rho i with Some s => Some s | None => K i end) as [s |] eqn:R; [| discriminate]. destruct P as (o' & E & KO). inversion E; subst o'. exists i, s. auto 10. }
  destruct CO as (_ & _ & _ & C4). destruct (list_eq_dec Z.eq_dec (modname g' j) (nth 0 (modnames g) [])) as [E | D].
  - right. destruct (C4 j NE E) as (i & EN & EM). apply (Q i EN EM).
  - destruct (s_other _ _ _ _ _ _ _ _ _ S _ _ _ D NE L) as [L0 | (_ & i & _ & EM & EN)]; [left | right; apply (Q i); congruence].
    pose proof (c_names _ _ _ _ _ C' j NE) as P. rewrite L0 in P. destruct (K' j) as [s |]; [| discriminate]. destruct P as (o' & E & KO). inversion E; subst o'. exists s. auto.
Qed.
Lemma known_fits : forall j s, known g' ms' j = Some s -> sname (str_of g' j) <> [] /\ exists x, nth_error ts' s = Some x /\ fits j x.
Proof.
  intros j s E. unfold known in E. destruct (list_eq_dec Z.eq_dec (sname (str_of g' j)) []) as [| NE]; [discriminate |]. split; [exact NE |].
  destruct (look ms' (modname g' j) (sname (str_of g' j))) as [o |] eqn:L; [| discriminate]. destruct (look_cases j o NE L) as [(s0 & KJ & KO) | (i & s0 & NI & EN & EM & R & KO)].
  2:{ rewrite KO in E. inversion E; subst s0. apply (same_by_name i j s NI EN EM R). }
  rewrite KO in E. inversion E; subst s0. clear E.
  destruct (c_known _ _ _ _ _ C' j s KJ) as (_ & x & N & A1 & A2 & A3 & A4 & A5).
  assert (MK : mod_index (modname g' j) ms' 0 = Some (imno x)) by (apply (mod_index_kept ms ms' _ _ (s_nodup _ _ _ _ _ _ _ _ _ S) (s_modules _ _ _ _ _ _ _ _ _ S) A2)).
  (** if the entry has been read again, it was by the same name *)
  assert (RR : forall i, rho i = Some s -> exists x, nth_error ts' s = Some x /\ fits j x).
  { intros i R. pose proof (s_known _ _ _ _ _ _ _ _ _ S i s R) as Q. destruct (K i) as [s' |] eqn:KI.
    - subst s'. destruct (c_known _ _ _ _ _ C i s KI) as (NI & x' & N' & B1 & B2 & _). rewrite N in N'. inversion N'; subst x'.
      apply (same_by_name i j s NI); [congruence | | rewrite R; reflexivity]. destruct (mod_index_nth _ _ _ _ A2) as (t1 & M1). destruct (mod_index_nth _ _ _ _ B2) as (t2 & M2). congruence.
    - assert (s < length ts)%nat by (apply nth_error_Some; congruence). lia. }
  assert (FR : (forall i, rho i <> Some s) -> nth_error ts' s = Some x) by (apply (s_frame _ _ _ _ _ _ _ _ _ S s x N)).
  destruct (nth_error ts' s) as [x' |] eqn:N'.
  - exists x'. split; [reflexivity |].
    assert (ST : forall P : Prop, {P} + {~ P} -> (x' = x -> P) -> ((exists x, Some x' = Some x /\ fits j x) -> P) -> P).
    { intros P [p | np] Q1 Q2; [exact p | exfalso]. assert (NR : forall i, rho i <> Some s) by (intros i R; apply np, Q2, (RR i R)). specialize (FR NR). inversion FR. auto. }
    split; [apply ST; [apply (list_eq_dec Z.eq_dec) | intros ->; exact A1 | intros (y & Ey & F); inversion Ey; subst y; tauto] |].
    split; [apply ST; [decide equality; apply Nat.eq_dec | intros ->; exact MK | intros (y & Ey & F); inversion Ey; subst y; tauto] |].
    split; [apply ST; [apply Z.eq_dec | intros ->; exact A3 | intros (y & Ey & F); inversion Ey; subst y; tauto] |].
    split; (apply ST; [apply Z.eq_dec | intros ->; assumption | intros (y & Ey & F); inversion Ey; subst y; tauto]).
  - exfalso. assert (NR : forall i, rho i <> Some s) by (intros i R; destruct (RR i R) as (y & Ey & _); discriminate). specialize (FR NR). discriminate.
Qed.
Lemma client_next : (length (nodup (list_eq_dec Z.eq_dec) (map fst ms' ++ modnames g')) <= 64)%nat -> client g' self (known g' ms') ts' ms'.
Proof.
  intros RM. constructor.
  - apply (c_self _ _ _ _ _ C').
  - exact RM.
  - apply (s_nodup _ _ _ _ _ _ _ _ _ S).
  - apply (s_at _ _ _ _ _ _ _ _ _ S).
  - apply known_fits.
  - intros j NE. unfold known. destruct (list_eq_dec Z.eq_dec (sname (str_of g' j)) []) as [| _]; [contradiction |].
    destruct (look ms' (modname g' j) (sname (str_of g' j))) as [o |] eqn:L; [| reflexivity].
    destruct (look_cases j o NE L) as [(s & _ & KO) | (i & s & _ & _ & _ & _ & KO)]; rewrite KO; exists o; auto.
  - intros n o NE L. destruct CO as (D & _ & C3 & _). destruct (s_other _ _ _ _ _ _ _ _ _ S _ _ _ (not_eq_sym D) NE L) as [L0 | (V & i & _ & EM & EN)]; [apply (c_new _ _ _ _ _ C' n o NE L0) |].
    split; [exact V |]. subst n. destruct (C3 i NE (eq_sym EM)) as (j & EN & EM'). exists j. split; [exact EN | congruence].
Qed.
(** A type of both is known under its number. *)
Lemma known_same : forall i j s, sname (str_of g i) <> [] -> sname (str_of g i) = sname (str_of g' j) -> modname g i = modname g' j -> rho i = Some s -> known g' ms' j = Some s.
Proof.
  intros i j s NE EN EM R. pose proof (s_names _ _ _ _ _ _ _ _ _ S i NE) as P. rewrite R, EN, EM in P. destruct P as (o & L & KO). unfold known.
  destruct (list_eq_dec Z.eq_dec (sname (str_of g' j)) []) as [E |]; [congruence |]. rewrite L, KO. reflexivity.
Qed.
(** A type that was known stays known by its number. *)
Lemma known_kept : forall j s, K' j = Some s -> known g' ms' j = Some s.
Proof.
  intros j s KJ. destruct (c_known _ _ _ _ _ C' j s KJ) as (NE & _). pose proof (c_names _ _ _ _ _ C' j NE) as P. rewrite KJ in P. destruct P as (o & L & KO).
  unfold known. destruct (list_eq_dec Z.eq_dec (sname (str_of g' j)) []) as [E |]; [congruence |].
  destruct (list_eq_dec Z.eq_dec (modname g' j) (nth 0 (modnames g) [])) as [E | D].
  - destruct CO as (_ & _ & _ & C4). destruct (C4 j NE E) as (i & EN & EM). pose proof (s_names _ _ _ _ _ _ _ _ _ S i ltac:(congruence)) as Q.
    pose proof (c_names _ _ _ _ _ C i ltac:(congruence)) as Q0. rewrite EN, EM, L in Q0. destruct (K i) as [s0 |] eqn:KI; [| discriminate]. destruct Q0 as (o' & EO & KO'). inversion EO; subst o'. rewrite KO in KO'. inversion KO'; subst s0.
    assert (RI : (match rho i with Some s => Some s | None => Some s end) = Some s). { destruct (rho i) as [s1 |] eqn:RI; [| reflexivity]. pose proof (s_known _ _ _ _ _ _ _ _ _ S i s1 RI) as Z0. rewrite KI in Z0. congruence. }
    rewrite EN, EM, RI in Q. destruct Q as (o2 & L2 & KO2). rewrite L2, KO2. reflexivity.
  - rewrite (s_keep _ _ _ _ _ _ _ _ _ S _ _ _ D NE L), KO. reflexivity.
Qed.
End Next.

(** ** Any number of modules *)
Local Notation M0 e := (nth 0 (modnames (eg e)) []).

Lemma room_sub : forall (a b : list name) k, incl a b -> (length (nodup (list_eq_dec Z.eq_dec) b) <= k)%nat -> (length (nodup (list_eq_dec Z.eq_dec) a) <= k)%nat.
Proof.
  intros a b k I L. transitivity (length (nodup (list_eq_dec Z.eq_dec) b)); [| exact L]. apply NoDup_incl_length; [apply NoDup_nodup |].
  intros x J. apply nodup_In, I. apply nodup_In in J. exact J.
Qed.

Lemma corr_is_type : forall g H rho ts ms i s x, nth_error ts s = Some x -> corr g H rho (fun k => option_map fst (nth_error ms k)) i x -> is_type g ts ms i s.
Proof. intros g H rho ts ms i s x N (A1 & A2 & _ & A4 & A5 & A6 & _). exists x. auto 10. Qed.

Lemma keep_len : forall g H self K ts ms ts' ms' m rho, client g self K ts ms -> sees g H K ts ms ts' ms' m rho -> (length ts <= length ts')%nat.
Proof.
  intros g H self K ts ms ts' ms' m rho C S. destruct (length ts) as [| k] eqn:L; [lia |]. assert (Q : nth_error ts' k <> None); [| apply nth_error_Some in Q; lia].
  intros E. destruct (nth_error ts k) as [x |] eqn:N; [| apply nth_error_None in N; lia].
  rewrite (s_frame _ _ _ _ _ _ _ _ _ S k x N) in E; [discriminate |]. intros i R. destruct (s_types _ _ _ _ _ _ _ _ _ S i k R) as (y & Ey & _). congruence.
Qed.
Lemma keep_type : forall g0 g H self K ts ms ts' ms' m rho i s, client g self K ts ms -> sees g H K ts ms ts' ms' m rho -> consistent g0 g -> is_type g0 ts ms i s -> is_type g0 ts' ms' i s.
Proof.
  intros g0 g H self K ts ms ts' ms' m rho i s C S CO (x & N & A1 & A2 & A3 & A4 & A5).
  assert (SL : (s < length ts)%nat) by (apply nth_error_Some; congruence).
  assert (MK : option_map fst (nth_error ms' (imno x)) = Some (modname g0 i)).
  { destruct (nth_error ms (imno x)) as [[n t] |] eqn:NM; [| discriminate]. cbn [option_map fst] in A2. inversion A2; subst n. destruct (s_modules _ _ _ _ _ _ _ _ _ S _ _ NM) as (t' & NM'). rewrite NM'. reflexivity. }
  assert (RR : forall k, rho k = Some s -> is_type g0 ts' ms' i s).
  { intros k R. pose proof (s_known _ _ _ _ _ _ _ _ _ S k s R) as Q. destruct (K k) as [s' |] eqn:KI; [| lia]. subst s'.
    destruct (c_known _ _ _ _ _ C k s KI) as (NK & x' & N' & B1 & B2 & _). rewrite N in N'. inversion N'; subst x'.
    assert (EM : modname g0 i = modname g k). { destruct (mod_index_nth _ _ _ _ B2) as (t & M). rewrite Nat.sub_0_r in M. rewrite M in A2. cbn in A2. congruence. }
    destruct CO as (_ & CS & _). destruct (CS i k ltac:(congruence) ltac:(congruence) EM) as (E1 & E2 & E3).
    destruct (s_types _ _ _ _ _ _ _ _ _ S k s R) as (y & Ny & D1 & D2 & _ & D4 & D5 & D6 & _). exists y. rewrite E1, E2, E3, EM. split; [exact Ny |]. split; [congruence |]. auto. }
  pose proof (s_frame _ _ _ _ _ _ _ _ _ S s x N) as FR. destruct (nth_error ts' s) as [x' |] eqn:N'.
  - assert (ST : forall P : Prop, {P} + {~ P} -> (x' = x -> P) -> (is_type g0 ts' ms' i s -> P) -> P).
    { intros P [p | np] Q1 Q2; [exact p | exfalso]. assert (NR : forall i, rho i <> Some s) by (intros k R; apply np, Q2, (RR k R)). specialize (FR NR). inversion FR. auto. }
    exists x'. split; [exact N' |].
    split; [apply ST; [apply (list_eq_dec Z.eq_dec) | intros ->; exact A1 | intros (y & Ey & F); rewrite N' in Ey; inversion Ey; subst y; tauto] |].
    split; [apply ST; [decide equality; apply (list_eq_dec Z.eq_dec) | intros ->; exact MK | intros (y & Ey & F); rewrite N' in Ey; inversion Ey; subst y; tauto] |].
    split; [apply ST; [apply Z.eq_dec | intros ->; exact A3 | intros (y & Ey & F); rewrite N' in Ey; inversion Ey; subst y; tauto] |].
    split; (apply ST; [apply Z.eq_dec | intros ->; assumption | intros (y & Ey & F); rewrite N' in Ey; inversion Ey; subst y; tauto]).
  - exfalso. assert (NR : forall i, rho i <> Some s) by (intros k R; destruct (RR k R) as (y & Ey & _); congruence). specialize (FR NR). discriminate.
Qed.
(** A type known only since the last import is one of the new ones. *)
Lemma known_new : forall g g' H self K K' ts ts' ms ms' m rho j s, client g self K ts ms -> client g' self K' ts ms -> sees g H K ts ms ts' ms' m rho -> consistent g g' ->
  K' j = None -> known g' ms' j = Some s -> (length ts <= s)%nat.
Proof.
  intros g g' H self K K' ts ts' ms ms' m rho j s C C' S CO KN E. unfold known in E. destruct (list_eq_dec Z.eq_dec (sname (str_of g' j)) []) as [| NE]; [discriminate |].
  destruct (look ms' (modname g' j) (sname (str_of g' j))) as [o |] eqn:L; [| discriminate]. destruct (look_cases g g' H self K K' ts ts' ms ms' m rho C' S CO j o NE L) as [(s0 & KJ & KO) | (i & s0 & NI & EN & EM & R & KO)]; [congruence |].
  rewrite KO in E. inversion E; subst s0. pose proof (c_names _ _ _ _ _ C' j NE) as P'. rewrite KN in P'. pose proof (c_names _ _ _ _ _ C i NI) as P. rewrite EN, EM, P' in P.
  destruct (K i) as [s0 |] eqn:KI; [destruct P as (o' & Q & _); discriminate |]. destruct (rho i) as [s1 |] eqn:RI; [| discriminate]. inversion R; subst s1.
  pose proof (s_known _ _ _ _ _ _ _ _ _ S i s RI) as Q. rewrite KI in Q. exact Q.
Qed.
Lemma Forall2_map_l : forall (A B D : Type) (f : A -> B) (R : B -> D -> Prop) l l', Forall2 R (map f l) l' -> Forall2 (fun a d => R (f a) d) l l'.
Proof. induction l as [| a l IH]; intros l' F; inversion F; subst; constructor; auto. Qed.
Lemma Forall2_map_r : forall (A B : Type) (f : A -> B) (R : A -> B -> Prop) l, Forall2 R l (map f l) -> forall a, In a l -> R a (f a).
Proof. induction l as [| a l IH]; intros F; [intros x [] |]. inversion F; subst. intros x [<- | I]; auto. Qed.
Lemma Forall2_combine : forall (A B : Type) (R : A -> B -> Prop) l l' p, Forall2 R l l' -> In p (combine l l') -> R (fst p) (snd p).
Proof. intros A B R l l' p F. induction F; cbn [combine]; [intros [] | intros [<- | I]; auto]. Qed.

Lemma imports_ok : forall self es ts ms Ks,
  Forall (ok_module self) es -> ForallOrdPairs (fun a b => consistent (eg a) (eg b)) es ->
  (length (nodup (list_eq_dec Z.eq_dec) (map fst ms ++ flat_map (fun e => modnames (eg e)) es)) <= 64)%nat ->
  Forall2 (fun e K => client (eg e) self K ts ms) es Ks ->
  exists N rhos ts' ms', (forall n, (N <= n)%nat -> Imports n self (map efile es) ts ms = Ok (ts', ms')) /\ all_seen es rhos ts' ms' /\
    Forall2 (fun (K rho : nat -> option nat) => forall i s, rho i = Some s -> match K i with Some s' => s = s' | None => (length ts <= s)%nat end) Ks rhos /\
    (forall mn n o, Forall (fun e => mn <> M0 e) es -> n <> [] -> look ms mn n = Some o -> look ms' mn n = Some o) /\
    (forall mn n o, Forall (fun e => mn <> M0 e) es -> n <> [] -> look ms' mn n = Some o -> ovis o <> Internal -> look ms mn n = Some o) /\
    (forall g i s, Forall (fun e => consistent g (eg e)) es -> is_type g ts ms i s -> is_type g ts' ms' i s).
Proof.
  intros self. induction es as [| e es IH]; intros ts ms Ks OK CO RM CL.
  - inversion CL; subst Ks. exists 0%nat, [], ts, ms. split; [reflexivity |]. split; [constructor; constructor |]. split; [constructor |]. auto.
  - inversion CL as [| e0 K es0 Ks' C CL' E1 E2]; subst e0 es0 Ks. apply Forall_cons_iff in OK as [(WF & HID & TOT & LK & SF & fuel & EX) OK]. inversion CO as [| e0 es0 COe COs E1]; subst e0 es0. clear CO CL.
    destruct (import_ok (eg e) (eH e) self K ts ms fuel (elinks e) (efile e) WF HID TOT LK C EX) as (N1 & m & r1 & rho & P1 & S).
    cbn [flat_map] in RM.
    assert (CN : Forall2 (fun e' K' => client (eg e') self K' (tys r1) (mods r1)) es (map (fun e' => known (eg e') (mods r1)) es)).
    { assert (SUB : forall e', In e' es -> (length (nodup (list_eq_dec Z.eq_dec) (map fst (mods r1) ++ modnames (eg e'))) <= 64)%nat).
      { intros e' J. revert RM. apply room_sub. intros x I. apply in_app_or in I as [I | I].
        - apply (s_incl _ _ _ _ _ _ _ _ _ S) in I. rewrite app_assoc. apply in_or_app. left. exact I.
        - apply in_or_app. right. apply in_or_app. right. apply in_flat_map. exists e'. auto. }
      clear - WF C S COe CL' SUB. induction CL' as [| e' K' es Ks C' CL' IH]; cbn [map]; constructor.
      - apply (client_next (eg e) (eg e') (eH e) self K K' ts (tys r1) ms (mods r1) m rho WF C C' S); [apply Forall_cons_iff in COe; tauto | apply SUB; left; reflexivity].
      - apply IH; [apply Forall_cons_iff in COe; tauto | intros; apply SUB; right; assumption]. }
    assert (RM2 : (length (nodup (list_eq_dec Z.eq_dec) (map fst (mods r1) ++ flat_map (fun e => modnames (eg e)) es)) <= 64)%nat).
    { revert RM. apply room_sub. intros x I. apply in_app_or in I as [I | I].
      - apply (s_incl _ _ _ _ _ _ _ _ _ S) in I. rewrite app_assoc. apply in_or_app. left. exact I.
      - apply in_or_app. right. apply in_or_app. right. exact I. }
    destruct (IH (tys r1) (mods r1) _ OK COs RM2 CN) as (N2 & rhos & ts' & ms' & P2 & [B1 B2 B3 B4 B5 B6] & KS & KE & RE & TE).
    assert (NM : Forall (fun e' => M0 e <> M0 e') es) by (revert COe; apply Forall_impl; intros e' Q; apply Q).
    exists (N1 + N2)%nat, (rho :: rhos), ts', ms'. split; [| split; [constructor | split; [| split; [| split]]]].
    + intros n L. cbn [map Imports]. rewrite P1 by lia. cbn [bind]. apply P2. lia.
    + constructor; [| exact B1]. intros n o J V. destruct (s_objects _ _ _ _ _ _ _ _ _ S n o J V) as (o' & L & Q). exists o'. split; [| exact Q]. apply KE; [exact NM | | exact L].
      pose proof (wf_objs _ _ WF) as WO. rewrite Forall_forall in WO. apply (WO _ J).
    + constructor; [| exact B2]. intros n o' NE L V. apply (s_only _ _ _ _ _ _ _ _ _ S n o' NE); [apply RE; assumption | exact V].
    + constructor; [| exact B3]. intros i s R. apply TE; [exact COe |]. destruct (s_types _ _ _ _ _ _ _ _ _ S i s R) as (x & Nx & CR). apply (corr_is_type _ _ _ _ _ _ _ _ Nx CR).
    + constructor; [apply (s_inj _ _ _ _ _ _ _ _ _ S) | exact B4].
    + cbn [combine]. constructor; [| exact B5]. apply Forall_forall. intros [e' rho'] J i j s s' NE EN EM R R'. cbn [fst snd] in *.
      pose proof (Forall2_combine _ _ _ _ _ _ (Forall2_map_l _ _ _ _ _ _ _ KS) J j s' R') as Q. cbn [fst] in Q.
      rewrite (known_same (eg e) (eg e') (eH e) K ts (tys r1) ms (mods r1) m rho S i j s NE EN EM R) in Q. congruence.
    + cbn [combine]. constructor; [| exact B6]. apply Forall_forall. intros [e' rho'] J i j s R R'. cbn [fst snd] in *.
      pose proof (Forall2_combine _ _ _ _ _ _ (Forall2_map_l _ _ _ _ _ _ _ KS) J j s R') as Q. cbn [fst] in Q.
      destruct (s_types _ _ _ _ _ _ _ _ _ S i s R) as (x & Nx & A1 & _). assert (SL : (s < length (tys r1))%nat) by (apply nth_error_Some; congruence).
      destruct (known (eg e') (mods r1) j) as [s0 |] eqn:KJ; [| lia]. subst s0.
      assert (Cj : exists K', client (eg e') self K' (tys r1) (mods r1) /\ K' j = Some s).
      { exists (known (eg e') (mods r1)). split; [| exact KJ]. apply in_combine_l in J. apply (Forall2_map_r _ _ _ _ _ CN e' J). }
      destruct Cj as (K' & Cj & Kj). destruct (c_known _ _ _ _ _ Cj j s Kj) as (NE & x' & Nx' & A1' & _). rewrite Nx in Nx'. inversion Nx'; subst x'. split; congruence.
    + constructor; [apply (s_known _ _ _ _ _ _ _ _ _ S) |]. pose proof (keep_len _ _ _ _ _ _ _ _ _ _ C S) as LEN.
      clear - KS CL' C S COe LEN. revert rhos KS. induction CL' as [| e' K' es Ks C' CL' IH]; intros rhos KS; inversion KS as [| k0 rho' l0 rhos' Q KS' E1 E2]; subst; constructor.
      * apply Forall_cons_iff in COe as [CE _]. intros j s R. specialize (Q j s R). destruct (K' j) as [s' |] eqn:KJ.
        -- rewrite (known_kept (eg e) (eg e') (eH e) self K K' ts (tys r1) ms (mods r1) m rho C C' S CE j s' KJ) in Q. exact Q.
        -- destruct (known (eg e') (mods r1) j) as [s0 |] eqn:KK; [| lia]. subst s0. apply (known_new _ _ _ _ _ _ _ _ _ _ _ _ _ _ C C' S CE KJ KK).
      * apply Forall_cons_iff in COe as [_ CE]. apply IH; assumption.
    + intros mn n o F NE L. apply Forall_cons_iff in F as [F1 F2]. apply KE; auto. apply (s_keep _ _ _ _ _ _ _ _ _ S); auto.
    + intros mn n o F NE L V. apply Forall_cons_iff in F as [F1 F2]. pose proof (RE _ _ _ F2 NE L V) as L1. destruct (s_other _ _ _ _ _ _ _ _ _ S _ _ _ F1 NE L1) as [Q | [Q _]]; [exact Q | contradiction].
    + intros g i s F T. apply Forall_cons_iff in F as [F1 F2]. apply TE; [exact F2 |]. apply (keep_type g (eg e) (eH e) self K ts ms _ _ m rho i s C S F1 T).
Qed.
