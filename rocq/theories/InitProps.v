(** Every module a program needs is executed once, after the modules it imports (C75). *)
From Coq Require Import Permutation Sorted.
From Verif Require Import Base CStrModel OpsProps ScopeModel ScopeProps InitSpec InitModel InitProofs.

(** * More fuel changes nothing *)
Lemma exec_mono : forall (c1 c2 : list Z -> world -> out), (forall y w, c1 y w <> Endless -> c2 y w = c1 y w) -> forall x h ss w, exec c1 x h ss w <> Endless -> exec c2 x h ss w = exec c1 x h ss w.
Proof.
  intros c1 c2 H x h. induction ss as [| s r IH]; intros w N; cbn [exec] in *; [reflexivity |].
  destruct s; try (apply IH, N); try reflexivity.
  - rewrite H by (intros E; rewrite E in N; congruence). destruct (c1 Modules (say EHeap w)); try reflexivity. apply IH, N.
  - destruct (is_set x w); [reflexivity | apply IH, N].
  - rewrite H by (intros E; rewrite E in N; congruence). destruct (c1 y w); try reflexivity. apply IH, N.
  - destruct h; [reflexivity | apply IH, N].
Qed.
Lemma init_mono : forall P f g x w, (f <= g)%nat -> init P f x w <> Endless -> init P g x w = init P f x w.
Proof.
  intros P. induction f as [| f IH]; intros [| g] x w L N; try reflexivity; try lia; [cbn in N; congruence |].
  cbn [init] in *. destruct (P x) as [m |]; [| reflexivity]. apply exec_mono; [| exact N]. intros y w' K. apply IH; [lia | exact K].
Qed.
Lemma start_mono : forall P f g x, (f <= g)%nat -> start P f x <> Endless -> start P g x = start P f x.
Proof.
  intros P f g x L N. unfold start in *. destruct (P x) as [m |]; [| reflexivity]. apply exec_mono; [| exact N]. intros y w K. apply init_mono; assumption.
Qed.
Lemma prefix_split : forall A (e : A) u p q b, p ++ q = u ++ e :: b -> In e p -> ~ In e u -> exists b', p = u ++ e :: b' /\ b = b' ++ q.
Proof.
  intros A e. induction u as [| h u IH]; intros [| k p] q b E I N; cbn [app] in E; try (destruct I; fail).
  - injection E as -> E. exists p. split; [reflexivity | symmetry; exact E].
  - injection E as -> E. destruct I as [-> | I]; [exfalso; apply N; left; reflexivity |]. destruct (IH p q b E I) as (b' & -> & ->); [intros K; apply N; right; exact K |]. exists b'. split; reflexivity.
Qed.

Section Main.
Variable P : list Z -> option modul.
Variable main : list Z.
Hypothesis L : linked P main.
Hypothesis A : acyclic P.
Hypothesis NM : ~ needs P Modules main.

(** The log of a run in which nothing halts, and what is known of it. *)
Lemma main_run : exists f lm r1 r2 s m, P main = Some m /\ runs P (start P f main) {| set := []; log := [] |} lm [] /\
  (exists l, lm = EHeap :: l ++ [EBody main; EFinal]) /\
  bodies lm = r1 ++ r2 ++ [main] /\ NoDup (bodies lm) /\ (forall z, In z (bodies lm) <-> needs P main z \/ needs P Modules z) /\
  order P [] [Modules] r1 /\ sorted_as fst (imports_of P main) s /\ order P r1 (map snd s) r2 /\ (forall z, In z (bodies lm) -> blk P [] lm z).
Proof.
  destruct A as [rank RK]. set (f := S (max (rank Modules) (rank main))).
  assert (DM : deep P Modules) by (intros y K; apply L; right; exact K).
  assert (Dm : deep P main) by (intros y K; apply L; left; exact K).
  assert (W : wf P main) by (apply Dm, needs_self). destruct (wf_mod P main W) as (m & E & SI & SC).
  assert (RM : (rank Modules < f)%nat) by lia. assert (Rm : (rank main < f)%nat) by lia.
  set (l0 := full P f [] Modules). set (r1 := bodies l0).
  assert (C0 : closed P []) by (intros x y []).
  pose proof (full_needs P rank RK f [] Modules RM DM C0) as N0. cbn [app In] in N0. fold l0 r1 in N0.
  assert (C1 : closed P r1). { intros x y K J. apply N0. right. apply N0 in K as [[] | K]. eapply needs_trans; eassumption. }
  destruct (full_part P rank RK f main Modules RM DM (or_intror NM) [] (NoDup_nil _) C0) as (ND0 & O0 & X0 & B0 & _). cbn [app] in ND0. fold l0 r1 in ND0, O0, X0, B0.
  assert (QI : forall y, In y (map snd (simps m)) -> (rank y < rank main)%nat /\ deep P y).
  { intros y J. apply (simps_in P main m y E W) in J as (a & J). split; [apply (RK main a), J | eapply deep_imp; eassumption]. }
  assert (GP : forall y, In y (map snd (simps m)) -> good_part P (full P f) main y).
  { intros y J. destruct (QI y J). apply (full_part P rank RK); [lia | assumption | left; assumption]. }
  set (l1 := fulls (full P f) main r1 (map snd (simps m))). set (r2 := bodies l1).
  destruct (finish_blk P (full P f) main m r1 [EFinal] E W ND0 C1 X0 GP) as (ND1 & O1 & B1); [intros e [<- | []]; reflexivity |]. fold l1 r2 in ND1, O1, B1.
  set (lm := EHeap :: l0 ++ l1 ++ block main m ++ [EFinal]).
  assert (EB : bodies lm = r1 ++ r2 ++ [main]).
  { unfold lm. change (bodies (EHeap :: ?l)) with (bodies l). rewrite !bodies_app, bodies_block. cbn [bodies flat_map]. rewrite app_nil_r. reflexivity. }
  exists f, lm, r1, r2, (simps m), m. split; [exact E |]. split; [| split; [| split; [exact EB |]; split; [rewrite EB; exact ND1 |]; split; [| split; [| split; [exact SI |]; split]]]].
  - unfold start. rewrite E. unfold code. cbn [exec app].
    assert (S0 : forall z, In z (set (say EHeap {| set := []; log := [] |})) <-> In z []) by (intros z; reflexivity).
    pose proof (full_run P rank RK f Modules [] (say EHeap {| set := []; log := [] |}) RM DM S0) as R. fold l0 in R. unfold runs in R.
    destruct (hl P l0) eqn:H0.
    + destruct R as (w' & a & x & b & Eo & El & Ha & Hx & Ew). rewrite Eo. unfold runs. unfold lm. change (hl P (EHeap :: ?l)) with (hl P l). rewrite hl_app, H0. cbn [orb].
      exists w', (EHeap :: a), x, (b ++ l1 ++ block main m ++ [EFinal]). split; [reflexivity |]. split; [rewrite El, <- app_assoc; reflexivity |]. split; [exact Ha |]. split; [exact Hx |]. rewrite Ew. reflexivity.
    + destruct R as (w1 & Eo & Ew & Es). rewrite Eo. rewrite InitImports_eq, RegCmds_eq. cbn [In] in Es.
      assert (S1 : forall z, In z (set w1) <-> In z r1) by (intros z; rewrite Es; unfold r1; tauto).
      pose proof (exec_imports P (init P f) (full P f) main (halts m) (SRegmain :: map SRegcmd (scmds m) ++ [SBody; SFini]) (map snd (simps m)) w1 r1 S1) as X. cbv zeta in X. fold l1 in X.
      specialize (X (fun y d w J S => full_run P rank RK f y d w ltac:(destruct (QI y J); lia) (proj2 (QI y J)) S)). cbn [app] in X.
      destruct (hl P l1) eqn:H1.
      * unfold runs in X. rewrite H1 in X. destruct X as (w' & a & x & b & Eo' & El & Ha & Hx & Ew'). rewrite Eo'. unfold runs, lm. change (hl P (EHeap :: ?l)) with (hl P l). rewrite !hl_app, H0, H1. cbn [orb].
        exists w', (EHeap :: l0 ++ a), x, (b ++ block main m ++ [EFinal]). split; [reflexivity |]. split; [rewrite El; cbn [app]; repeat rewrite <- app_assoc; reflexivity |]. split; [change (hl P (EHeap :: ?l)) with (hl P l); rewrite hl_app, H0; exact Ha |]. split; [exact Hx |]. rewrite Ew', Ew. cbn [say log app]. repeat rewrite <- app_assoc. reflexivity.
      * destruct X as (w2 & Eo' & Ew2 & Es2). rewrite Eo'. cbn [exec]. rewrite exec_cmds. cbn [exec say set log].
        assert (HB : hl P (block main m) = halts m). { unfold hl. rewrite bodies_block. cbn [existsb]. rewrite E. apply orb_false_r. }
        unfold runs, lm. change (hl P (EHeap :: ?l)) with (hl P l). rewrite !hl_app, H0, H1, HB. change (hl P [EFinal]) with false. rewrite orb_false_r. cbn [orb].
        destruct (halts m) eqn:Hm.
        -- eexists _, (EHeap :: l0 ++ l1 ++ EReg main :: map (ECmd main) (scmds m)), main, [EFinal]. split; [reflexivity |]. split; [unfold block; cbn [app]; repeat rewrite <- app_assoc; cbn [app]; repeat rewrite <- app_assoc; reflexivity |].
           split; [change (hl P (EHeap :: ?l)) with (hl P l); rewrite !hl_app, H0, H1; apply hl_nobody; exact (bodies_cmds main (scmds m)) |]. split; [rewrite (hl_body P main m E); exact Hm |]. cbn [say log]. rewrite Ew2, Ew. cbn [say log app]. repeat rewrite <- app_assoc. reflexivity.
        -- eexists. split; [reflexivity |]. cbn [say log set]. split.
           ++ rewrite Ew2, Ew. unfold block. cbn [say log app]. repeat rewrite <- app_assoc. cbn [app]. repeat rewrite <- app_assoc. reflexivity.
           ++ intros z. fold lm. rewrite EB. cbn [In]. rewrite Es2, !in_app_iff. unfold r2. cbn [In]. tauto.
  - exists (l0 ++ l1 ++ EReg main :: map (ECmd main) (scmds m)). unfold lm, block. repeat rewrite <- app_assoc. cbn [app]. repeat rewrite <- app_assoc. reflexivity.
  - intros z. rewrite EB, !in_app_iff, N0.
    pose proof (fulls_needs P (full P f) main (map snd (simps m)) r1 C1) as FN. fold l1 r2 in FN.
    assert (FN' : In z (r1 ++ r2) <-> In z r1 \/ exists y, In y (map snd (simps m)) /\ needs P y z).
    { apply FN. intros d y J C. destruct (QI y J). apply (full_needs P rank RK); [lia | assumption | exact C]. }
    rewrite in_app_iff, N0 in FN'. split.
    + intros [[[] | K] | [K | [<- | []]]]; [right; exact K | | left; apply needs_self].
      destruct (proj1 FN' (or_intror K)) as [[[] | J] | (y & J & J')]; [right; exact J |]. left. apply (simps_in P main m y E W) in J as (a & J). eapply needs_trans; [eapply needs_step; [apply needs_self | exact J] | exact J'].
    + intros [K | K]; [| tauto]. apply needs_inv in K as [-> | (a & y & J & K)]; [cbn [In]; tauto |].
      assert (Q : (False \/ needs P Modules z) \/ In z r2); [| tauto]. apply FN'. right. exists y. split; [| exact K]. apply (simps_in P main m y E W). exists a. exact J.
  - apply (full_order P rank RK f [] Modules RM DM).
  - apply fulls_order. intros d y J. destruct (QI y J). apply (full_order P rank RK); [lia | assumption].
  - intros z I. rewrite EB in I. unfold lm. change (EHeap :: l0 ++ ?l) with ((EHeap :: l0) ++ l).
    assert (O0' : own r1 (EHeap :: l0)) by (intros e u [<- | J] K; [destruct K | apply (O0 e u J K)]).
    apply in_app_iff in I as [I | I].
    + apply blk_left.
      * destruct (B0 z I) as (mz & a & b & Ez & El & H1 & H2 & H3 & H4). exists mz, (EHeap :: a), b. split; [exact Ez |]. split; [rewrite El; reflexivity |]. split; [exact H1 |]. split; [intros y; rewrite <- H2; reflexivity |]. split; [| exact H4].
        intros e [<- | J] K; [destruct K | apply H3; assumption].
      * intros e J K. apply (NoDup_disj _ _ _ z ND1 I). apply (O1 e z J K).
    + apply (blk_right P [] r1); [apply B1, I | exact O0' |]. intros J. exact (NoDup_disj _ _ _ z ND1 J I).
Qed.

(** [ran w]: the program came to an end, with what happened in [w]. *)
Definition ran (w : world) : Prop := exists f, start P f main = Back w \/ start P f main = Halted w.
Lemma ran_log : exists lm r1 r2 s m, P main = Some m /\
  (exists l, lm = EHeap :: l ++ [EBody main; EFinal]) /\
  bodies lm = r1 ++ r2 ++ [main] /\ NoDup (bodies lm) /\ (forall z, In z (bodies lm) <-> needs P main z \/ needs P Modules z) /\
  order P [] [Modules] r1 /\ sorted_as fst (imports_of P main) s /\ order P r1 (map snd s) r2 /\ (forall z, In z (bodies lm) -> blk P [] lm z) /\
  (exists f, start P f main <> Endless) /\
  forall f w, (start P f main = Back w -> hl P lm = false /\ log w = lm) /\
    (start P f main = Halted w -> exists a x b, lm = a ++ EBody x :: b /\ log w = a ++ [EBody x] /\ hl P a = false /\ hl P [EBody x] = true) /\ start P f main <> Unlinked.
Proof.
  destruct main_run as (f & lm & r1 & r2 & s & m & E & R & H1 & H2 & H3 & H4 & H5 & H6 & H7 & H8). exists lm, r1, r2, s, m. repeat (split; [assumption |]).
  assert (NE : start P f main <> Endless). { unfold runs in R. destruct (hl P lm); destruct R as (w & R); [destruct R as (a & x & b & Eo & _) | destruct R as (Eo & _)]; rewrite Eo; discriminate. }
  split; [exists f; exact NE |]. intros g w.
  assert (Q : start P g main <> Endless -> start P g main = start P f main).
  { intros K. destruct (Nat.le_ge_cases f g) as [J | J]; [apply start_mono; assumption | symmetry; apply start_mono; assumption]. }
  unfold runs in R. split; [| split].
  - intros K. rewrite Q in K by congruence. destruct (hl P lm); [destruct R as (w' & a & x & b & Eo & _); congruence |]. destruct R as (w' & Eo & El & _). rewrite Eo in K. injection K as <-. split; [reflexivity | exact El].
  - intros K. rewrite Q in K by congruence. destruct (hl P lm); [| destruct R as (w' & Eo & _); congruence]. destruct R as (w' & a & x & b & Eo & El & Ha & Hx & Ew). rewrite Eo in K. injection K as <-. exists a, x, b. auto.
  - intros K. rewrite Q in K by congruence. destruct (hl P lm); destruct R as (w' & R); [destruct R as (a & x & b & Eo & _) | destruct R as (Eo & _)]; congruence.
Qed.
End Main.

(** * The theorems *)
(** Every program that can be linked and whose imports are acyclic comes through the start of its modules: it ends, or it is ended by a
    body. *)
Theorem C75_ends : forall P main, linked P main -> acyclic P -> ~ needs P Modules main -> exists w, ran P main w.
Proof.
  intros P main L A N. destruct (ran_log P main L A N) as (lm & r1 & r2 & s & m & E & H1 & H2 & H3 & H4 & H5 & H6 & H7 & H8 & (f & NE) & R).
  destruct (start P f main) as [w | w | |] eqn:K; [exists w, f; left; exact K | exists w, f; right; exact K | congruence |]. destruct (R f {| set := []; log := [] |}) as (_ & _ & X). congruence.
Qed.
(** No body is executed twice. *)
Theorem C75_once : forall P main w, linked P main -> acyclic P -> ~ needs P Modules main -> ran P main w -> NoDup (bodies (log w)).
Proof.
  intros P main w L A N (f & K). destruct (ran_log P main L A N) as (lm & r1 & r2 & s & m & E & H1 & H2 & H3 & H4 & H5 & H6 & H7 & H8 & _ & R). destruct (R f w) as (RB & RH & _).
  destruct K as [K | K]; [destruct (RB K) as [_ ->]; exact H3 |]. destruct (RH K) as (a & x & b & El & -> & _). rewrite El in H3. change (EBody x :: b) with ([EBody x] ++ b) in H3. rewrite app_assoc, bodies_app in H3.
  clear -H3. induction (bodies (a ++ [EBody x])) as [| k l IH]; constructor; cbn [app] in H3; apply NoDup_cons_iff in H3 as [N1 N2]; [intros J; apply N1, in_or_app; left; exact J | auto].
Qed.
(** If no body halts, the bodies executed are those of the modules needed by the main module and by the run-time system, the main module
    comes last, and then the program is finalised; the heap is made ready first. *)
Theorem C75_all : forall P main f w, linked P main -> acyclic P -> ~ needs P Modules main -> start P f main = Back w ->
  (forall x, In x (bodies (log w)) <-> needs P main x \/ needs P Modules x) /\ (exists l, log w = EHeap :: l ++ [EBody main; EFinal]) /\ (forall x m, In x (bodies (log w)) -> P x = Some m -> halts m = false).
Proof.
  intros P main f w L A N K. destruct (ran_log P main L A N) as (lm & r1 & r2 & s & m & E & H1 & H2 & H3 & H4 & H5 & H6 & H7 & H8 & _ & R). destruct (R f w) as (RB & _ & _). destruct (RB K) as [Hh ->].
  split; [exact H4 |]. split; [exact H1 |]. intros x mx I Ex. unfold hl in Hh. destruct (halts mx) eqn:Q; [| reflexivity]. rewrite <- Hh. symmetry. apply existsb_exists. exists x. rewrite Ex. auto.
Qed.
(** A body that halts is the last thing that happens. *)
Theorem C75_halted : forall P main f w, linked P main -> acyclic P -> ~ needs P Modules main -> start P f main = Halted w ->
  exists l x m, log w = EHeap :: l ++ [EBody x] /\ P x = Some m /\ halts m = true /\ (needs P main x \/ needs P Modules x) /\ (forall y k, In y (bodies l) -> P y = Some k -> halts k = false).
Proof.
  intros P main f w L A N K. destruct (ran_log P main L A N) as (lm & r1 & r2 & s & m & E & (l0 & H1) & H2 & H3 & H4 & H5 & H6 & H7 & H8 & _ & R). destruct (R f w) as (_ & RH & _). destruct (RH K) as (a & x & b & El & Ew & Ha & Hx).
  destruct a as [| e a]; [rewrite El in H1; discriminate H1 |]. rewrite H1 in El. cbn [app] in El. injection El as <- El.
  unfold hl in Hx. cbn [bodies flat_map app existsb] in Hx. destruct (P x) as [mx |] eqn:Ex; [| discriminate Hx]. rewrite orb_false_r in Hx. exists a, x, mx. split; [exact Ew |]. split; [exact Ex |]. split; [exact Hx |]. split.
  - apply H4. rewrite H1. apply bodies_in. right. rewrite El. apply in_or_app. right. left. reflexivity.
  - intros y k I Ey. unfold hl in Ha. change (bodies (EHeap :: a)) with (bodies a) in Ha. destruct (halts k) eqn:Q; [| reflexivity]. rewrite <- Ha. symmetry. apply existsb_exists. exists y. rewrite Ey. auto.
Qed.
(** A module is entered once, right before its body, together with its commands, which are the exported procedures without parameters and
    result in the order of their names.  Before that, and never afterwards, it asked for each module it imports, as often as it imports
    it, and the bodies of these modules had been executed by then. *)
Theorem C75_imports_first : forall P main w x, linked P main -> acyclic P -> ~ needs P Modules main -> ran P main w -> In x (bodies (log w)) ->
  exists m a cs b, P x = Some m /\ log w = a ++ EReg x :: map (ECmd x) cs ++ EBody x :: b /\ sorted_as (fun c => c) (commands m) cs /\
    (forall n y, In (n, y) (imports m) -> In y (bodies a)) /\
    (forall y, clients x y a = count_occ (list_eq_dec Z.eq_dec) (map snd (imports m)) y) /\
    (forall e, In e a -> In x (about e) -> exists y, e = EClient x y) /\ (forall e, In e b -> ~ In x (about e)).
Proof.
  intros P main w x L A N (f & K) I. destruct (ran_log P main L A N) as (lm & r1 & r2 & s & m & E & H1 & H2 & H3 & H4 & H5 & H6 & H7 & H8 & _ & R). destruct (R f w) as (RB & RH & _).
  assert (PX : exists q, lm = log w ++ q).
  { destruct K as [K | K]; [destruct (RB K) as [_ ->]; exists []; symmetry; apply app_nil_r |]. destruct (RH K) as (a & y & b & -> & -> & _). exists b. rewrite <- app_assoc. reflexivity. }
  destruct PX as (q & EQ). assert (I' : In x (bodies lm)) by (rewrite EQ, bodies_app; apply in_or_app; left; exact I).
  destruct (H8 x I') as (mx & a & b & Ex & El & Q1 & Q2 & Q3 & Q4). cbn [app] in Q1.
  assert (W : wf P x). { apply L. apply H4, I'. } destruct (wf_mod P x W) as (m' & Ex' & _ & SC). rewrite Ex in Ex'. injection Ex' as <-.
  assert (X : exists b', log w = (a ++ EReg x :: map (ECmd x) (scmds mx)) ++ EBody x :: b' /\ b = b' ++ q).
  { apply prefix_split; [| apply bodies_in, I |].
    - rewrite <- EQ, El. unfold block. repeat rewrite <- app_assoc. cbn [app]. repeat rewrite <- app_assoc. reflexivity.
    - intros J. apply in_app_iff in J as [J | [J | J]]; [destruct (Q3 _ J (or_introl eq_refl)) as (y & J'); discriminate J' | discriminate J |]. apply in_map_iff in J as (c & J & _). discriminate J. }
  destruct X as (b' & El' & ->). unfold imports_of in Q1, Q2. rewrite Ex in Q1, Q2.
  exists mx, a, (scmds mx), b'. split; [exact Ex |]. split; [rewrite El', <- app_assoc; reflexivity |]. split; [exact SC |]. split; [exact Q1 |]. split; [exact Q2 |]. split; [exact Q3 |].
  intros e J. apply Q4, in_or_app. left. exact J.
Qed.
(** The order is fixed: the run-time system first, then what the main module imports, then the main module; imports are taken in the order
    of their local names, not in the order in which they are written.  A program that halts executes a beginning of this sequence. *)
Theorem C75_order : forall P main, linked P main -> acyclic P -> ~ needs P Modules main ->
  exists s r1 r2, sorted_as fst (imports_of P main) s /\ order P [] [Modules] r1 /\ order P r1 (map snd s) r2 /\
    forall f w, (start P f main = Back w -> bodies (log w) = r1 ++ r2 ++ [main]) /\ (start P f main = Halted w -> exists l, bodies (log w) ++ l = r1 ++ r2 ++ [main]).
Proof.
  intros P main L A N. destruct (ran_log P main L A N) as (lm & r1 & r2 & s & m & E & H1 & H2 & H3 & H4 & H5 & H6 & H7 & H8 & _ & R). exists s, r1, r2. split; [exact H6 |]. split; [exact H5 |]. split; [exact H7 |].
  intros f w. destruct (R f w) as (RB & RH & _). split; [intros K; destruct (RB K) as [_ ->]; exact H2 |]. intros K. destruct (RH K) as (a & x & b & El & -> & _). exists (bodies b). rewrite <- bodies_app, <- app_assoc. cbn [app]. rewrite <- El. exact H2.
Qed.
(** The order is determined by the program. *)
Theorem C75_order_unique : forall P d w l l', order P d w l -> order P d w l' -> l = l'.
Proof.
  assert (U : forall A (nm : A -> list Z) (l l' : list A), Permutation l l' -> StronglySorted (fun p q => before (nm p) (nm q)) l -> StronglySorted (fun p q => before (nm p) (nm q)) l' -> l = l').
  { intros A nm. induction l as [| a l IH]; intros l' Q S S'; [apply Permutation_nil in Q; congruence |]. destruct l' as [| b l']; [apply Permutation_sym, Permutation_nil in Q; discriminate |].
    apply StronglySorted_inv in S as [S F]. apply StronglySorted_inv in S' as [S' F'].
    assert (a = b).
    { assert (I : In a (b :: l')) by (eapply Permutation_in; [exact Q | left; reflexivity]). assert (J : In b (a :: l)) by (eapply Permutation_in; [apply Permutation_sym, Q | left; reflexivity]).
      destruct I as [-> | I]; [reflexivity |]. destruct J as [-> | J]; [reflexivity |]. exfalso. apply (before_irrefl (nm a)). apply before_ncmp. apply (ncmp_trans _ (nm b)); apply before_ncmp; [exact (proj1 (Forall_forall _ _) F _ J) | exact (proj1 (Forall_forall _ _) F' _ I)]. }
    subst b. f_equal. apply IH; [eapply Permutation_cons_inv, Q | exact S | exact S']. }
  intros P d w l l' H. revert l'. induction H as [d | d x w l I H IH | d x w s l1 l2 I S H1 IH1 H2 IH2]; intros l' K; inversion K as [| ? ? ? ? I' H' | ? ? ? s' k1 k2 I' S' K1 K2]; subst; try contradiction; [reflexivity | apply IH; assumption |].
  assert (s = s'). { destruct S as [Q S], S' as [Q' S']. eapply U; [| exact S | exact S']. eapply Permutation_trans; [apply Permutation_sym, Q | exact Q']. }
  subst s'. rewrite (IH1 _ K1) in *. rewrite (IH2 _ K2). reflexivity.
Qed.
(** With the run-time system as it is (Modules imports Platform and Heap, which import nothing but SYSTEM), Heap is executed first, then
    Platform, then Modules, before anything else. *)
Definition Heap : list Z := [72; 101; 97; 112].
Definition Platform : list Z := [80; 108; 97; 116; 102; 111; 114; 109].
Theorem C75_runtime : forall P main f w, linked P main -> acyclic P -> ~ needs P Modules main ->
  imports_of P Modules = [(Platform, Platform); (Heap, Heap)] -> imports_of P Heap = [] -> imports_of P Platform = [] -> start P f main = Back w ->
  exists r, bodies (log w) = [Heap; Platform; Modules] ++ r.
Proof.
  intros P main f w L A N EM EH EP K. destruct (C75_order P main L A N) as (s & r1 & r2 & _ & O & _ & R). destruct (R f w) as [RB _]. rewrite (RB K).
  assert (O' : order P [] [Modules] ([Heap; Platform] ++ Modules :: [])).
  { apply order_new with (s := [(Heap, Heap); (Platform, Platform)]).
    - intros [].
    - rewrite EM. split; [apply perm_swap |]. repeat constructor.
    - change ([Heap; Platform]) with ([] ++ Heap :: [Platform]). apply order_new with (s := []); [intros [] | rewrite EH; split; constructor | constructor |].
      change ([Platform]) with ([] ++ Platform :: []). apply order_new with (s := []); [intros [X | []]; discriminate X | rewrite EP; split; constructor | constructor | constructor].
    - constructor. }
  rewrite (C75_order_unique P _ _ _ _ O O'). exists (r2 ++ [main]). reflexivity.
Qed.

(** A program: M imports Z as A, and B; B imports Z and SYSTEM; a procedure P of M is a command.  Z comes before B although B is written
    first. *)
Module Case.
Definition nm (c : Z) : list Z := [c].
Definition prg (x : list Z) : option modul :=
  if name_eqb x Modules then Some {| decls := [(SYSTEM, Import SYSTEM); (Platform, Import Platform); (Heap, Import Heap); ([82], Proc true false true false)]; halts := false |}
  else if name_eqb x Heap then Some {| decls := [([83], Import SYSTEM)]; halts := false |}
  else if name_eqb x Platform then Some {| decls := [(SYSTEM, Import SYSTEM)]; halts := false |}
  else if name_eqb x (nm 77) then Some {| decls := [(nm 66, Import (nm 66)); (nm 65, Import (nm 90)); (nm 81, Proc true false false false); (nm 80, Proc true false false false); (nm 82, Proc false false false false)]; halts := false |}
  else if name_eqb x (nm 66) then Some {| decls := [(SYSTEM, Import SYSTEM); (nm 90, Import (nm 90))]; halts := false |}
  else if name_eqb x (nm 90) then Some {| decls := [(nm 88, Other)]; halts := false |}
  else None.
Example runs_to : start prg 5 (nm 77) = Back {| set := [nm 77; nm 66; nm 90; Modules; Platform; Heap];
  log := [EHeap; EReg Heap; EBody Heap; EClient Modules Heap; EReg Platform; EBody Platform; EClient Modules Platform; EReg Modules; EBody Modules;
    EReg (nm 90); EBody (nm 90); EClient (nm 77) (nm 90); EClient (nm 66) (nm 90); EReg (nm 66); EBody (nm 66); EClient (nm 77) (nm 66);
    EReg (nm 77); ECmd (nm 77) (nm 80); ECmd (nm 77) (nm 81); EBody (nm 77); EFinal] |}.
Proof. vm_compute. reflexivity. Qed.
Lemma imports_case : forall x a y, In (a, y) (imports_of prg x) -> (x = Modules /\ (y = Heap \/ y = Platform)) \/ (x = nm 77 /\ (y = nm 66 \/ y = nm 90)) \/ (x = nm 66 /\ y = nm 90).
Proof.
  intros x a y. unfold imports_of, prg.
  destruct (name_eqb x Modules) eqn:E1; [apply name_eqb_eq in E1; vm_compute; intros [K | [K | []]]; injection K as <- <-; left; split; auto |].
  destruct (name_eqb x Heap) eqn:E2; [vm_compute; intros [] |]. destruct (name_eqb x Platform) eqn:E3; [vm_compute; intros [] |].
  destruct (name_eqb x (nm 77)) eqn:E4; [apply name_eqb_eq in E4; vm_compute; intros [K | [K | []]]; injection K as <- <-; right; left; split; auto |].
  destruct (name_eqb x (nm 66)) eqn:E5; [apply name_eqb_eq in E5; vm_compute; intros [K | []]; injection K as <- <-; right; right; split; auto |].
  destruct (name_eqb x (nm 90)); vm_compute; intros [].
Qed.
Definition rank (x : list Z) : nat := if name_eqb x Modules then 1 else if name_eqb x (nm 77) then 2 else if name_eqb x (nm 66) then 1 else 0.
Example is_acyclic : acyclic prg.
Proof. exists rank. intros x a y I. apply imports_case in I as [(-> & [-> | ->]) | [(-> & [-> | ->]) | (-> & ->)]]; vm_compute; lia. Qed.
Example not_needed : ~ needs prg Modules (nm 77).
Proof.
  assert (Q : forall y, needs prg Modules y -> y = Modules \/ y = Heap \/ y = Platform).
  { intros y H. induction H as [| y z a H IH I]; [auto |]. apply imports_case in I as [(-> & [-> | ->]) | [(-> & _) | (-> & _)]]; auto; destruct IH as [K | [K | K]]; discriminate K. }
  intros H. apply Q in H as [K | [K | K]]; discriminate K.
Qed.
Example is_linked : linked prg (nm 77).
Proof.
  assert (W : forall x, In x [Modules; Heap; Platform; nm 77; nm 66; nm 90] -> well_formed prg x).
  { intros x I. cbn [In] in I.
    destruct I as [<- | [<- | [<- | [<- | [<- | [<- | []]]]]]]; (eexists; split; [vm_compute; reflexivity |]; cbn [decls map fst]; split;
      [repeat (constructor; [intros K; cbn [In] in K; repeat destruct K as [K | K]; try discriminate K; exact K |]); constructor
      | repeat (constructor; [eexists _, _; split; [reflexivity | lia] |]); constructor]). }
  intros x H. apply W.
  assert (Q : forall u, u = nm 77 \/ u = Modules -> forall y, needs prg u y -> In y [Modules; Heap; Platform; nm 77; nm 66; nm 90]).
  { intros u U y K. induction K as [| y z a K IH I]; [destruct U as [-> | ->]; cbn; auto |]. apply imports_case in I as [(_ & [-> | ->]) | [(_ & [-> | ->]) | (_ & ->)]]; cbn; auto 8. }
  destruct H as [H | H]; eapply Q; [left; reflexivity | exact H | right; reflexivity | exact H].
Qed.
(** The same program when the body of B halts: nothing of M is executed. *)
Definition prg' (x : list Z) : option modul := if name_eqb x (nm 66) then Some {| decls := [(nm 90, Import (nm 90))]; halts := true |} else prg x.
Example halts_in_B : exists w, start prg' 5 (nm 77) = Halted w /\ bodies (log w) = [Heap; Platform; Modules; nm 90; nm 66].
Proof. eexists. split; [vm_compute; reflexivity | reflexivity]. Qed.
End Case.

Print Assumptions C75_ends.
Print Assumptions C75_once.
Print Assumptions C75_all.
Print Assumptions C75_halted.
Print Assumptions C75_imports_first.
Print Assumptions C75_order.
Print Assumptions C75_order_unique.
Print Assumptions C75_runtime.
