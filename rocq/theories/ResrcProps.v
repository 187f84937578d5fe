(** C101: resources. *)
From Verif Require Import Base ResrcModel ResrcSpec ResrcProofs.
(** The calls behind the actions; the keys obtained are kept in a list. *)
Definition step (n : nat) (s : world * list (option nat)) (o : op) : res (world * list (option nat)) :=
  let (w, m) := s in
  match o with
  | USE r => let (k, w) := Attach w r in Ok (w, m ++ [k])
  | RELEASE r i => let* w := Detach n w r (nth i m None) in Ok (w, m)
  | TELL r c => let* w := Notify n n w r c in Ok (w, m)
  | DEPEND d r => let* w := DependsOn n n w d r in Ok (w, m)
  end.
Fixpoint run (n : nat) (s : world * list (option nat)) (l : list op) : res (world * list (option nat)) :=
  match l with [] => Ok s | o :: l => let* s := step n s o in run n s l end.

Definition good (rank : nat -> nat) (s : world * list (option nat)) : Prop :=
  inv rank [] (fst s) /\ forall k, In (Some k) (snd s) -> (k < length (keys (fst s)))%nat /\ forall d, key (discs (fst s) d) <> Some k.
Lemma start_good : forall rank, good rank (start, []).
Proof. intros rank. split; [|intros k []]. constructor; cbn; intros; try discriminate; try contradiction; auto; try (split; [contradiction|discriminate]). constructor. Qed.
Lemma good_frame : forall rank w m w', good rank (w, m) -> inv rank [] w' -> length (keys w') = length (keys w) -> (forall q, key (discs w' q) = key (discs w q) \/ key (discs w' q) = None) -> good rank (w', m).
Proof. intros rank w m w' [_ G] I L K. split; [exact I|]. intros k H. destruct (G k H) as [A B]. cbn [fst snd] in *. split; [lia|]. intros d. destruct (K d) as [->| ->]; [apply B|discriminate]. Qed.
Lemma notify_ok : forall rank n w r c, (forall q, (rank q < n)%nat) -> inv rank [] w -> exists w', Notify n n w r c = Ok w' /\ inv rank [] w' /\ length (keys w') = length (keys w) /\ (forall q, key (discs w' q) = key (discs w q) \/ key (discs w' q) = None) /\
  (forall q, state (discs w q) = terminated -> state (discs w' q) = terminated).
Proof.
  intros rank n w r c B I. unfold Notify. assert (T : exists w', Ok w = Ok w' /\ inv rank [] w' /\ length (keys w') = length (keys w) /\ (forall q, key (discs w' q) = key (discs w q) \/ key (discs w' q) = None) /\ (forall q, state (discs w q) = terminated -> state (discs w' q) = terminated)) by (exists w; auto 10).
  destruct (negb (c =? unreferenced)); [|exact T]. destruct (_ && _ && _); [|exact T]. destruct (inotify_ok rank n B c w r I) as (w' & E & I' & L & A1 & A2 & K). exists w'. split; [exact E|]. split; [exact I'|]. split; [exact L|]. split; [exact K|].
  intros q Q. destruct (A2 q) as [[[X|[X _]] _]|X]; [congruence|contradiction|]. rewrite (proj1 (A1 q X)). apply chg_term, Q.
Qed.
Lemma attach_inv : forall rank w r, inv rank [] w -> forall k w', Attach w r = (k, w') -> inv rank [] w' /\ (forall q, key (discs w' q) = key (discs w q) /\ state (discs w' q) = state (discs w q) /\ dependants (discs w' q) = dependants (discs w q) /\ dependsOn (discs w' q) = dependsOn (discs w q)) /\
  (k = None /\ w' = w /\ (state (discs w r) = terminated \/ state (discs w r) = unreferenced) \/ k = Some (length (keys w)) /\ keys w' = keys w ++ [(true, r)] /\ state (discs w r) <> terminated /\ state (discs w r) <> unreferenced).
Proof.
  intros rank w r I k w' E. unfold Attach in E. destruct ((state (discs w r) =? ResrcModel.terminated) || (state (discs w r) =? unreferenced)) eqn:ES; injection E as <- <-.
  - split; [exact I|]. split; [auto|]. left. split; [reflexivity|]. split; [reflexivity|]. unfold terminated. lia.
  - set (w' := {| discs := _; keys := _ |}). assert (F : forall q, key (discs w' q) = key (discs w q) /\ state (discs w' q) = state (discs w q) /\ dependants (discs w' q) = dependants (discs w q) /\ dependsOn (discs w' q) = dependsOn (discs w q)).
    { intros q. unfold w'. cbn [discs upd]. destruct (q =? r)%nat eqn:Q; [apply Nat.eqb_eq in Q; subst q|]; auto. }
    split; [|split; [exact F|right; unfold terminated; repeat split; lia]]. destruct I as [I1 I2 I3 I4 I5 I6 I7 I8]. constructor.
    + intros q. unfold w'. cbn [discs upd keys]. rewrite vk_app. cbn. rewrite (Nat.eqb_sym r q). destruct (q =? r)%nat eqn:Q; [apply Nat.eqb_eq in Q; subst q; cbn; rewrite I1; lia|rewrite I1; lia].
    + intros d q. rewrite (proj1 (proj2 (proj2 (F q)))), (proj2 (proj2 (proj2 (F d)))). apply I2.
    + intros d q [].
    + intros q. rewrite (proj1 (proj2 (proj2 (F q)))). apply I4.
    + intros d q NI. rewrite (proj2 (proj2 (proj2 (F d)))), (proj1 (F d)). intros Q. destruct (I5 d q NI Q) as (k' & A & B). exists k'. split; [exact A|]. cbn [w' keys]. rewrite nth_error_app1; [exact B|]. apply nth_error_Some. rewrite B. discriminate.
    + intros d NI. rewrite (proj2 (proj2 (proj2 (F d)))), (proj1 (F d)). apply I6, NI.
    + intros d e k'. rewrite (proj1 (F d)), (proj1 (F e)). apply I7.
    + intros d q. rewrite (proj2 (proj2 (proj2 (F d)))). apply I8.
Qed.
Lemma key_bound : forall rank w d k, inv rank [] w -> key (discs w d) = Some k -> (k < length (keys w))%nat.
Proof.
  intros rank w d k I H. destruct (dependsOn (discs w d)) as [r|] eqn:E; [|rewrite (i_none _ _ _ I d ltac:(intros []) E) in H; discriminate].
  destruct (i_key _ _ _ I d r ltac:(intros []) E) as (k' & A & B). assert (k' = k) by congruence. subst k'. apply nth_error_Some. rewrite B. discriminate.
Qed.
(** DependsOn on an alive resource. *)
Lemma depends_ok : forall rank g f w d r, inv rank [] w -> (rank r < rank d)%nat -> unreferenced < state (discs w r) -> dependsOn (discs w d) = None ->
  exists w', DependsOn g f w d r = Ok w' /\ inv rank [] w' /\ (forall q, D w' q = if (q =? r)%nat then d :: D w q else D w q) /\ keys w' = keys w ++ [(true, r)] /\
    (forall q, state (discs w' q) = state (discs w q) /\ (q = d /\ key (discs w' q) = Some (length (keys w)) \/ key (discs w' q) = key (discs w q))).
Proof.
  intros rank g f w d r I R S1 DN. unfold terminated, ResrcModel.terminated, unreferenced in *. assert (NE : d <> r) by (intros ->; lia). unfold DependsOn. replace (state (discs w r) <=? unreferenced) with false by (unfold unreferenced; lia). rewrite DN.
  set (w1 := upd w d (with_link (discs w d) (Some r) (key (discs w d)))). set (w2 := upd w1 r (with_dependants (discs w1 r) (d :: dependants (discs w1 r)))).
  assert (S2' : state (discs w2 r) = state (discs w r)) by (unfold w2; rewrite upd_same; cbn [with_dependants state]; unfold w1; rewrite upd_other by congruence; reflexivity).
  unfold Attach. rewrite S2'. replace ((state (discs w r) =? ResrcModel.terminated) || (state (discs w r) =? unreferenced)) with false by (unfold ResrcModel.terminated, unreferenced; lia).
  eexists. split; [reflexivity|]. set (w' := upd _ d _). change (keys w2) with (keys w) in *.
  assert (XD : discs w' d = with_link (discs w d) (Some r) (Some (length (keys w)))).
  { unfold w'. rewrite upd_same. cbn [discs]. rewrite upd_other by exact NE. unfold w2. rewrite upd_other by exact NE. unfold w1. rewrite upd_same. reflexivity. }
  assert (XR : discs w' r = with_refcnt (with_dependants (discs w r) (d :: dependants (discs w r))) (refcnt (discs w r) + 1)).
  { unfold w'. rewrite upd_other by congruence. cbn [discs]. rewrite upd_same. unfold w2. rewrite upd_same. unfold w1. rewrite upd_other by congruence. reflexivity. }
  assert (XO : forall q, q <> d -> q <> r -> discs w' q = discs w q).
  { intros q Q1 Q2. unfold w'. rewrite upd_other by exact Q1. cbn [discs]. rewrite upd_other by exact Q2. unfold w2. rewrite upd_other by exact Q2. unfold w1. rewrite upd_other by exact Q1. reflexivity. }
  assert (KW : keys w' = keys w ++ [(true, r)]) by reflexivity.
  assert (FD : forall q, D w' q = if (q =? r)%nat then d :: D w q else D w q).
  { intros q. unfold D. destruct (Nat.eq_dec q r) as [->|Q]; [rewrite Nat.eqb_refl, XR; reflexivity|]. replace (q =? r)%nat with false by (symmetry; apply Nat.eqb_neq; exact Q). destruct (Nat.eq_dec q d) as [->|Q']; [rewrite XD; reflexivity|rewrite XO by assumption; reflexivity]. }
  assert (FO : forall q, dependsOn (discs w' q) = if (q =? d)%nat then Some r else dependsOn (discs w q)).
  { intros q. destruct (Nat.eq_dec q d) as [->|Q]; [rewrite Nat.eqb_refl, XD; reflexivity|]. replace (q =? d)%nat with false by (symmetry; apply Nat.eqb_neq; exact Q). destruct (Nat.eq_dec q r) as [->|Q']; [rewrite XR; reflexivity|rewrite XO by assumption; reflexivity]. }
  assert (FK : forall q, key (discs w' q) = if (q =? d)%nat then Some (length (keys w)) else key (discs w q)).
  { intros q. destruct (Nat.eq_dec q d) as [->|Q]; [rewrite Nat.eqb_refl, XD; reflexivity|]. replace (q =? d)%nat with false by (symmetry; apply Nat.eqb_neq; exact Q). destruct (Nat.eq_dec q r) as [->|Q']; [rewrite XR; reflexivity|rewrite XO by assumption; reflexivity]. }
  clearbody w1 w2. clearbody w'.   split; [|split; [exact FD|split; [exact KW|]]].
  - pose proof (fun q k => key_bound rank w q k I) as KB. destruct I as [I1 I2 I3 I4 I5 I6 I7 I8]. constructor.
    + intros q. rewrite KW, vk_app. cbn. rewrite (Nat.eqb_sym r q). destruct (q =? r)%nat eqn:Q; [apply Nat.eqb_eq in Q; subst q; rewrite XR; cbn; rewrite I1; lia|]. apply Nat.eqb_neq in Q. destruct (Nat.eq_dec q d) as [->|Q']; [rewrite XD; cbn; rewrite I1; lia|rewrite XO by assumption; rewrite I1; lia].
    + intros e q _. fold (D w' q). rewrite FD, FO. destruct (e =? d)%nat eqn:E.
      * apply Nat.eqb_eq in E. subst e. destruct (q =? r)%nat eqn:Q; [apply Nat.eqb_eq in Q; subst q; cbn; tauto|]. apply Nat.eqb_neq in Q. split; [intros X; apply (I2 d q ltac:(intros [])) in X; congruence|intros X; congruence].
      * apply Nat.eqb_neq in E. rewrite <- (I2 e q ltac:(intros [])). unfold D. destruct (q =? r)%nat; cbn; [|tauto]. split; [intros [X|X]; [congruence|exact X]|auto].
    + intros e q [].
    + intros q. fold (D w' q). rewrite FD. destruct (q =? r)%nat eqn:Q; [|apply I4]. apply Nat.eqb_eq in Q. subst q. constructor; [|apply I4]. intros X. apply (I2 d r ltac:(intros [])) in X. congruence.
    + intros e q _. rewrite FO, FK, KW. destruct (e =? d)%nat; [intros X; injection X as <-; exists (length (keys w)); split; [reflexivity|]; rewrite nth_error_app2, Nat.sub_diag by lia; reflexivity|]. intros X. destruct (I5 e q ltac:(intros []) X) as (k & A & B). exists k. split; [exact A|]. rewrite nth_error_app1; [exact B|]. exact (KB e k A).
    + intros e _. rewrite FO, FK. destruct (e =? d)%nat; [discriminate|apply I6; intros []].
    + intros e e' k. rewrite !FK. destruct (e =? d)%nat eqn:E, (e' =? d)%nat eqn:E'; intros A B; try (apply Nat.eqb_eq in E); try (apply Nat.eqb_eq in E'); subst; try reflexivity.
      * injection A as <-. specialize (KB e' _ B). lia. * injection B as <-. specialize (KB e _ A). lia. * exact (I7 e e' k A B).
    + intros e q. rewrite FO. destruct (e =? d)%nat eqn:E; [apply Nat.eqb_eq in E; subst e; intros X; injection X as <-; exact R|apply I8].
  - intros q. split.
    + destruct (Nat.eq_dec q d) as [->|Q]; [rewrite XD; reflexivity|]. destruct (Nat.eq_dec q r) as [->|Q']; [rewrite XR; reflexivity|rewrite XO by assumption; reflexivity].
    + rewrite FK. destruct (q =? d)%nat eqn:Q; [left; apply Nat.eqb_eq in Q; auto|right; reflexivity].
Qed.
Lemma step_ok : forall rank n s o, (forall q, (rank q < n)%nat) -> good rank s -> layered rank o ->
  exists s', step n s o = Ok s' /\ good rank s' /\ (forall q, state (discs (fst s) q) = terminated -> state (discs (fst s') q) = terminated).
Proof.
  intros rank n [w m] o B G LO. pose proof G as [I GM]. cbn [fst snd] in *. destruct o as [r|r i|r c|d r]; cbn [step].
  - destruct (Attach w r) as [k w'] eqn:E. destruct (attach_inv rank w r I k w' E) as (I' & F & C). exists (w', m ++ [k]). split; [reflexivity|]. split; [|intros q Q; cbn [fst]; rewrite (proj1 (proj2 (F q))); exact Q]. split; [exact I'|]. cbn [fst snd]. intros k' H. apply in_app_or in H. destruct C as [(-> & -> & _)|(-> & KW & _)].
    + destruct H as [H|[H|[]]]; [apply GM, H|discriminate].
    + rewrite KW, app_length. cbn. destruct H as [H|[H|[]]].
      * destruct (GM k' H) as [X Y]. split; [lia|]. intros d. rewrite (proj1 (F d)). apply Y.
      * injection H as <-. split; [lia|]. intros d. rewrite (proj1 (F d)). intros X. pose proof (key_bound rank w d _ I X). lia.
  - destruct (nth i m None) as [k|] eqn:E.
    + assert (HI : In (Some k) m) by (destruct (nth_in_or_default i m None) as [X|X]; [rewrite E in X; exact X|congruence]). destruct (GM k HI) as [KL KD].
      destruct (detach_ok rank n w r k [] I ltac:(intros x []) ltac:(intros d _; apply KD) KL (B r)) as (w' & -> & I' & L & F). exists (w', m). split; [reflexivity|]. split; [|intros q Q; cbn [fst]; destruct (F q) as (_ & [X|[X _]] & _); [congruence|contradiction]].
      apply (good_frame rank w m w' G I' L). intros q. apply (F q).
    + specialize (B r). destruct n as [|n]; [lia|]. exists (w, m). split; [reflexivity|]. split; [exact G|auto].
  - destruct (notify_ok rank n w r c B I) as (w' & -> & I' & L & K & T). exists (w', m). split; [reflexivity|]. split; [exact (good_frame rank w m w' G I' L K)|exact T].
  - cbn [layered] in LO. destruct (Z.leb_spec (state (discs w r)) unreferenced) as [C|C].
    + unfold DependsOn. replace (state (discs w r) <=? unreferenced) with true by lia. destruct (state (discs w r) =? ResrcModel.terminated); [|exists (w, m); auto].
      destruct (notify_ok rank n w d (state (discs w r)) B I) as (w' & -> & I' & L & K & T). exists (w', m). split; [reflexivity|]. split; [exact (good_frame rank w m w' G I' L K)|exact T].
    + destruct (dependsOn (discs w d)) as [p|] eqn:E.
      * unfold DependsOn. replace (state (discs w r) <=? unreferenced) with false by lia. rewrite E. exists (w, m). auto.
      * unfold unreferenced in C. destruct (depends_ok rank n n w d r I LO ltac:(unfold unreferenced; lia) E) as (w' & -> & I' & _ & KW & F). exists (w', m). split; [reflexivity|]. split; [|intros q Q; cbn [fst]; rewrite (proj1 (F q)); exact Q].
        split; [exact I'|]. cbn [fst snd]. intros k H. destruct (GM k H) as [X Y]. rewrite KW, app_length. split; [cbn; lia|]. intros e. destruct (proj2 (F e)) as [[_ Q]|Q]; rewrite Q; [intros Z; injection Z as <-; lia|apply Y].
Qed.
Lemma run_ok : forall rank n l s, (forall q, (rank q < n)%nat) -> good rank s -> Forall (layered rank) l -> exists s', run n s l = Ok s' /\ good rank s' /\ (forall q, state (discs (fst s) q) = terminated -> state (discs (fst s') q) = terminated).
Proof.
  intros rank n l. induction l as [|o l IH]; intros s B G F; [exists s; auto|]. inversion F as [|? ? F1 F2]; subst. destruct (step_ok rank n s o B G F1) as (s1 & E & G1 & T1). cbn [run]. rewrite E, bok. destruct (IH s1 B G1 F2) as (s' & E' & G' & T'). exists s'. auto.
Qed.
(** All that can be reached. *)
Definition reached (rank : nat -> nat) (n : nat) (w : world) (m : list (option nat)) : Prop := exists l, Forall (layered rank) l /\ run n (start, []) l = Ok (w, m).
Lemma reached_good : forall rank n w m, (forall q, (rank q < n)%nat) -> reached rank n w m -> good rank (w, m).
Proof. intros rank n w m B (l & F & R). destruct (run_ok rank n l (start, []) B (start_good rank) F) as (s & E & G & _). rewrite R in E. injection E as <-. exact G. Qed.

(** Whatever users do, as long as the dependencies have no cycles: all calls return, no NIL is followed, the counter of a resource is the number of its valid keys,
    and d is in the list of r exactly if d is linked to r. *)
Theorem C101_history_partial : forall rank n l, (forall q, (rank q < n)%nat) -> Forall (layered rank) l ->
  exists w m, run n (start, []) l = Ok (w, m) /\ (forall r, refcnt (discs w r) = valid_keys (keys w) r) /\ (forall d r, In d (D w r) <-> dependsOn (discs w d) = Some r).
Proof. intros rank n l B F. destruct (run_ok rank n l (start, []) B (start_good rank) F) as ([w m] & E & [I _] & _). exists w, m. split; [exact E|]. split; [apply (i_cnt _ _ _ I)|]. intros d r. apply (i_link _ _ _ I). intros []. Qed.
(** Terminated is for ever. *)
Theorem C101_forever_partial : forall rank n w m l, (forall q, (rank q < n)%nat) -> reached rank n w m -> Forall (layered rank) l ->
  exists w' m', run n (w, m) l = Ok (w', m') /\ forall q, Terminated w q = true -> Terminated w' q = true /\ Attach w' q = (None, w').
Proof.
  intros rank n w m l B R F. destruct (run_ok rank n l (w, m) B (reached_good rank n w m B R) F) as ([w' m'] & E & _ & T). exists w', m'. split; [exact E|]. intros q Q. apply Z.eqb_eq in Q. specialize (T q Q). cbn [fst] in T.
  assert (X : (state (discs w' q) =? ResrcModel.terminated) = true) by (apply Z.eqb_eq; exact T). split; [exact X|]. unfold Attach. rewrite X. reflexivity.
Qed.
(** A termination reaches all direct and indirect dependants and terminates nothing else. *)
Theorem C101_terminate_partial : forall rank n w m r, (forall q, (rank q < n)%nat) -> reached rank n w m -> Terminated w r = false ->
  exists w', Notify n n w r terminated = Ok w' /\ (forall q, below (D w) r q -> Terminated w' q = true /\ Alive w' q = false /\ Stopped w' q = false) /\
    (forall q, Terminated w' q = true -> Terminated w q = true \/ below (D w) r q) /\ (forall q, Stopped w' q = Stopped w q \/ below (D w) r q).
Proof.
  intros rank n w m r B R T. destruct (reached_good rank n w m B R) as [I _]. cbn [fst] in I. destruct (inotify_ok rank n B terminated w r I) as (w' & E & _ & _ & A1 & A2 & _). exists w'. unfold Terminated in *. split; [|split; [|split]].
  - unfold Notify. change (terminated =? unreferenced) with false. change terminated with ResrcModel.terminated. rewrite T. cbn [negb andb]. exact E.
  - intros q Q. destruct (A1 q Q) as [X Y]. unfold Alive, Stopped. rewrite X, Y. repeat split.
  - intros q Q. apply Z.eqb_eq in Q. destruct (A2 q) as [[[X|[_ X]] _]|X]; [left; apply Z.eqb_eq; congruence|rewrite X in Q; discriminate|right; exact X].
  - intros q. destruct (A2 q) as [[_ X]|X]; auto.
Qed.
(** Stopping and resuming reach all dependants and nothing else, and leave everybody as alive as before. *)
Theorem C101_stop_partial : forall rank n w m r b, (forall q, (rank q < n)%nat) -> reached rank n w m -> state (discs w r) = alive \/ state (discs w r) = unreferenced -> (b = false -> Stopped w r = true) ->
  exists w', Notify n n w r (if b : bool then communicationStopped else communicationResumed) = Ok w' /\ (forall q, below (D w) r q -> Stopped w' q = b /\ state (discs w' q) = state (discs w q)) /\
    (forall q, Stopped w' q = Stopped w q \/ below (D w) r q).
Proof.
  intros rank n w m r b B R S HB. destruct (reached_good rank n w m B R) as [I _]. cbn [fst] in I. set (c := if b then communicationStopped else communicationResumed). destruct (inotify_ok rank n B c w r I) as (w' & E & _ & _ & A1 & A2 & _). exists w'. split; [|split].
  - unfold Notify. replace (c =? unreferenced) with false by (destruct b; reflexivity). unfold Stopped in HB. replace (_ && _ && _) with true; [exact E|]. symmetry. unfold c. destruct b; [|rewrite (HB eq_refl)]; destruct S as [-> | ->]; reflexivity.
  - intros q Q. destruct (A1 q Q) as [X Y]. unfold Stopped. rewrite X, Y. unfold c. destruct b; split; reflexivity.
  - intros q. destruct (A2 q) as [[_ X]|X]; auto.
Qed.
(** Detach never makes a key valid again and changes states only to unreferenced. *)
Definition fades (w w' : world) : Prop := (forall k r, nth_error (keys w) k = Some (false, r) -> nth_error (keys w') k = Some (false, r)) /\ (forall q, state (discs w q) = unreferenced -> state (discs w' q) = unreferenced).
Lemma unlink_fades : forall det, (forall w r k w', det w r k = Ok w' -> fades w w') -> forall w d p w', Unlink det w d p = Ok w' -> fades w w'.
Proof.
  intros det H w d p w' E. unfold Unlink in E. destruct (state (discs w p) =? ResrcModel.terminated); [injection E as <-; split; auto|]. destruct (take_out d _) as [l|]; [|discriminate].
  set (w1 := upd w p (with_dependants (discs w p) l)) in *. assert (F1 : fades w w1) by (split; [auto|]; intros q Q; unfold w1, upd; cbn [discs]; destruct (q =? p)%nat eqn:X; [apply Nat.eqb_eq in X; subst q|]; exact Q).
  assert (X : forall u, fades w u -> fades w (upd u d (with_link (discs u d) None None))).
  { intros u [A B]. split; [exact A|]. intros q Q. specialize (B q Q). unfold upd. cbn [discs]. destruct (q =? d)%nat eqn:Y; [apply Nat.eqb_eq in Y; subst q|]; exact B. }
  destruct (dependsOn (discs w1 d)) as [r|].
  - destruct (det w1 r (key (discs w1 d))) as [w2| | |] eqn:E2; try discriminate. rewrite bok in E. injection E as <-. apply X. destruct (H _ _ _ _ E2) as [A B], F1 as [A1 B1]. split; auto.
  - rewrite bok in E. injection E as <-. apply X, F1.
Qed.
Lemma detach_fades : forall f w r k w', Detach f w r k = Ok w' -> fades w w'.
Proof.
  induction f as [|f IH]; intros w r k w' E; [discriminate|]. assert (Same : fades w w) by (split; auto). cbn [Detach] in E. destruct k as [k|]; [|injection E as <-; exact Same]. destruct (nth_error (keys w) k) as [[v kr]|] eqn:EK; [|discriminate].
  destruct (v && (kr =? r)%nat) eqn:EV; [|injection E as <-; exact Same]. destruct (negb _); [|injection E as <-; exact Same]. destruct v; [|discriminate].
  set (w1 := upd _ r _) in E. assert (F1 : fades w w1).
  { split; [intros k' r' Q; cbn; rewrite nth_set_nth_neq; [exact Q|intros ->; congruence]|]. intros q Q. unfold w1, upd. cbn [discs]. destruct (q =? r)%nat eqn:X; [apply Nat.eqb_eq in X; subst q|]; exact Q. }
  destruct (refcnt (discs w1 r) =? 0); [|injection E as <-; exact F1]. set (w2 := upd w1 r _) in E. assert (F2 : fades w w2).
  { destruct F1 as [A B]. split; [exact A|]. intros q Q. specialize (B q Q). unfold w2, upd. cbn [discs]. destruct (q =? r)%nat; [reflexivity|exact B]. }
  destruct (dependsOn (discs w2 r)) as [p|]; [|injection E as <-; exact F2]. destruct (unlink_fades (Detach f) IH _ _ _ _ E) as [A B], F2 as [A2 B2]. split; auto.
Qed.
(** A key that a user gives back counts once: the resource is unreferenced exactly if it was the last one. *)
Theorem C101_release_partial : forall rank n w m r k, (forall q, (rank q < n)%nat) -> reached rank n w m -> In (Some k) m -> nth_error (keys w) k = Some (true, r) -> Terminated w r = false ->
  exists w', Detach n w r (Some k) = Ok w' /\ nth_error (keys w') k = Some (false, r) /\ state (discs w' r) = if valid_keys (keys w) r =? 1 then unreferenced else state (discs w r).
Proof.
  intros rank n w m r k B R KI KV T. destruct (reached_good rank n w m B R) as [I GM]. cbn [fst snd] in *. destruct (GM k KI) as [KL KD]. unfold Terminated in T.
  destruct (detach_ok rank n w r k [] I ltac:(intros x []) ltac:(intros d _; apply KD) KL (B r)) as (w' & E & I' & L & F). exists w'. split; [exact E|].
  specialize (B r). destruct n as [|n]; [lia|]. cbn [Detach] in E. rewrite KV, T, Nat.eqb_refl in E. cbn [andb negb] in E. rewrite upd_same in E. cbn [with_refcnt refcnt discs] in E. rewrite (i_cnt _ _ _ I r) in E.
  set (w1 := upd {| discs := discs w; keys := set_nth k (false, r) (keys w) |} r (with_refcnt (discs w r) (valid_keys (keys w) r - 1))) in *.
  assert (K1 : nth_error (set_nth k (false, r) (keys w)) k = Some (false, r)) by (apply nth_set_nth_eq; exact KL).
  assert (S1 : state (discs w1 r) = state (discs w r)) by (unfold w1; rewrite upd_same; reflexivity).
  destruct (valid_keys (keys w) r - 1 =? 0) eqn:C.
  2:{ replace (valid_keys (keys w) r =? 1) with false by lia. injection E as <-. auto. }
  replace (valid_keys (keys w) r =? 1) with true by lia. unfold terminated in F. destruct (F r) as (_ & FS & _).
  set (w2 := upd w1 r _) in E. assert (S2 : state (discs w2 r) = unreferenced) by (unfold w2; rewrite upd_same; reflexivity).
  assert (FD : fades w2 w') by (destruct (dependsOn (discs w2 r)) as [p|]; [exact (unlink_fades _ (detach_fades n) _ _ _ _ E)|injection E as <-; split; auto]). destruct FD as [FA FB]. split; [apply FA; exact K1|apply FB; exact S2].
Qed.
(** A key is given to everybody until the resource is terminated or unreferenced. *)
Theorem C101_attach : forall w r, (exists w', Attach w r = (Some (length (keys w)), w') /\ nth_error (keys w') (length (keys w)) = Some (true, r)) <-> state (discs w r) <> terminated /\ state (discs w r) <> unreferenced.
Proof.
  intros w r. unfold Attach. destruct ((state (discs w r) =? ResrcModel.terminated) || (state (discs w r) =? unreferenced)) eqn:E; unfold terminated.
  - split; [intros (w' & Q & _); discriminate|lia].
  - split; [lia|]. intros _. eexists. split; [reflexivity|]. cbn [keys]. rewrite nth_error_app2, Nat.sub_diag by lia. reflexivity.
Qed.
(** A resource that depends on nothing yet becomes a dependant of an alive one and holds a key of it; a dead one takes it along. *)
Theorem C101_depend_partial : forall rank n w m d r, (forall q, (rank q < n)%nat) -> reached rank n w m -> (rank r < rank d)%nat ->
  exists w', DependsOn n n w d r = Ok w' /\
    (state (discs w r) = alive -> dependsOn (discs w d) = None -> below (D w') r d /\ valid_keys (keys w') r = valid_keys (keys w) r + 1) /\
    (Terminated w r = true -> Terminated w' d = true).
Proof.
  intros rank n w m d r B R LT. destruct (reached_good rank n w m B R) as [I GM]. cbn [fst snd] in *. destruct (step_ok rank n (w, m) (DEPEND d r) B (conj I GM) LT) as ([w' m'] & E & _ & _). cbn [step] in E. destruct (DependsOn n n w d r) as [w1| | |] eqn:ED; try discriminate. rewrite bok in E. injection E as -> <-.
  exists w'. split; [reflexivity|]. split.
  - intros A N. destruct (depends_ok rank n n w d r I LT ltac:(rewrite A; reflexivity) N) as (w2 & E2 & _ & FD & KW & _). rewrite ED in E2. injection E2 as <-. split; [|rewrite KW, vk_app; cbn; rewrite Nat.eqb_refl; cbn; lia].
    apply below_step with d; [rewrite FD, Nat.eqb_refl; left; reflexivity|constructor].
  - intros T. apply Z.eqb_eq in T. unfold DependsOn in ED. rewrite T in ED. change (ResrcModel.terminated <=? unreferenced) with true in ED. change (ResrcModel.terminated =? ResrcModel.terminated) with true in ED. cbv iota in ED. destruct (Terminated w d) eqn:TD.
    + unfold Notify, Terminated in *. rewrite TD in ED. cbn in ED. injection ED as <-. exact TD.
    + destruct (C101_terminate_partial rank n w m d B R TD) as (w2 & E2 & A & _). change terminated with ResrcModel.terminated in E2. rewrite ED in E2. injection E2 as <-. apply (A d). constructor.
Qed.
(** The end of a history, for the examples. *)
Definition is_ok (x : res (world * list (option nat))) : bool := match x with Ok _ => true | _ => false end.
Definition out (x : res (world * list (option nat))) : world * list (option nat) := match x with Ok s => s | _ => (start, []) end.
Lemma ok_out : forall x, is_ok x = true -> x = Ok (fst (out x), snd (out x)). Proof. intros [[w m]| | |] H; cbn in *; [reflexivity|discriminate|discriminate|discriminate]. Qed.
(** Nothing stops a resource from depending on itself; every notification then runs for ever. *)
Theorem C101_cycle_refuted : forall g f, exists w, DependsOn g f start 0 0 = Ok w /\ forall n, Notify g n w 0 communicationStopped = Fuel.
Proof.
  intros g f. eexists. split; [reflexivity|]. intros n. unfold Notify. cbn [negb andb orb]. set (w := upd _ _ _). change (negb (communicationStopped =? unreferenced)) with true. cbv iota. 
  replace (_ && _ && _) with true by reflexivity. assert (H : forall u, dependants (discs u 0%nat) = [0%nat] -> InternalNotify g n u 0 communicationStopped = Fuel); [|apply H; reflexivity].
  induction n as [|n IH]; intros u Q; [reflexivity|]. rewrite inotify_eq. cbv zeta. rewrite upd_same. replace (dependants (chg communicationStopped (discs u 0%nat))) with [0%nat] by (symmetry; exact Q). cbn [each]. rewrite IH; [reflexivity|]. rewrite upd_same. exact Q.
Qed.
(** The documentation of Stopped says "and not yet terminated": a terminated resource that is made to depend on another one afterwards is said to be stopped. *)
Theorem C101_stopped_refuted : exists w m, run 2 (start, []) [TELL 1 terminated; DEPEND 1 0; TELL 0 communicationStopped] = Ok (w, m) /\ Terminated w 1 = true /\ Stopped w 1 = true.
Proof. exists (fst (out (run 2 (start, []) [TELL 1 terminated; DEPEND 1 0; TELL 0 communicationStopped]))), (snd (out (run 2 (start, []) [TELL 1 terminated; DEPEND 1 0; TELL 0 communicationStopped]))). split; [apply ok_out; vm_compute; reflexivity|]. split; vm_compute; reflexivity. Qed.
(** A dependant "detaches if it becomes unreferenced": one that is unreferenced already keeps its key, the other resource stays in use although all users have given back their keys. *)
Theorem C101_leak_refuted : exists w m, run 2 (start, []) [USE 1; RELEASE 1 0; USE 0; DEPEND 1 0; RELEASE 0 1] = Ok (w, m) /\ state (discs w 1) = unreferenced /\ state (discs w 0) = alive /\ valid_keys (keys w) 0 = 1.
Proof. exists (fst (out (run 2 (start, []) [USE 1; RELEASE 1 0; USE 0; DEPEND 1 0; RELEASE 0 1]))), (snd (out (run 2 (start, []) [USE 1; RELEASE 1 0; USE 0; DEPEND 1 0; RELEASE 0 1]))). split; [apply ok_out; vm_compute; reflexivity|]. split; [vm_compute; reflexivity|]. split; vm_compute; reflexivity. Qed.
(** A chain 2 -> 1 -> 0: the hypotheses are met. *)
Definition ranks (q : nat) : nat := if (q <? 3)%nat then q else 0%nat.
Definition chain := [USE 2; DEPEND 1 0; DEPEND 2 1; USE 0].
Example C101_chain : (forall q, (ranks q < 3)%nat) /\ Forall (layered ranks) chain /\ exists w m, run 3 (start, []) chain = Ok (w, m) /\ below (D w) 0 2 /\ Terminated w 0 = false /\ m = [Some 0%nat; Some 3%nat] /\ valid_keys (keys w) 0 = 2 /\ valid_keys (keys w) 2 = 1.
Proof.
  split; [intros q; unfold ranks; destruct (q <? 3)%nat eqn:E; [apply Nat.ltb_lt in E; lia|lia]|]. split; [repeat constructor|]. exists (fst (out (run 3 (start, []) chain))), (snd (out (run 3 (start, []) chain))). split; [apply ok_out; vm_compute; reflexivity|]. split; [|repeat split; vm_compute; reflexivity].
  apply below_step with 1%nat; [vm_compute; auto|]. apply below_step with 2%nat; [vm_compute; auto|constructor].
Qed.
(** Giving back the key of 2 makes 2 and then 1 unreferenced; 0 is still in use. *)
Example C101_chain_release : exists w m, run 3 (start, []) (chain ++ [RELEASE 2 0]) = Ok (w, m) /\ state (discs w 2) = unreferenced /\ state (discs w 1) = unreferenced /\ state (discs w 0) = alive /\ valid_keys (keys w) 0 = 1.
Proof. exists (fst (out (run 3 (start, []) (chain ++ [RELEASE 2 0])))), (snd (out (run 3 (start, []) (chain ++ [RELEASE 2 0])))). split; [apply ok_out; vm_compute; reflexivity|]. repeat split; vm_compute; reflexivity. Qed.
Example C101_chain_stop : exists w m, run 3 (start, []) (chain ++ [TELL 0 communicationStopped; TELL 1 communicationResumed; TELL 1 terminated]) = Ok (w, m) /\ Stopped w 0 = true /\ Terminated w 2 = true /\ Alive w 1 = false /\ Terminated w 0 = false.
Proof. exists (fst (out (run 3 (start, []) (chain ++ [TELL 0 communicationStopped; TELL 1 communicationResumed; TELL 1 terminated])))), (snd (out (run 3 (start, []) (chain ++ [TELL 0 communicationStopped; TELL 1 communicationResumed; TELL 1 terminated])))). split; [apply ok_out; vm_compute; reflexivity|]. repeat split; vm_compute; reflexivity. Qed.

Print Assumptions C101_history_partial.
Print Assumptions C101_forever_partial.
Print Assumptions C101_terminate_partial.
Print Assumptions C101_stop_partial.
Print Assumptions C101_release_partial.
Print Assumptions C101_attach.
Print Assumptions C101_depend_partial.
Print Assumptions C101_cycle_refuted.
Print Assumptions C101_stopped_refuted.
Print Assumptions C101_leak_refuted.
