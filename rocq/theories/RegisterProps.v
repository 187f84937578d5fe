(** Property C21: New, any use of the file, Register, with the program stopping after any system call. *)
From Verif Require Import Base ArrZ FilesModel FilesSpec FilesProofs FilesProps RegisterModel RegisterProofs.

(** A new file used by [os] through [n] riders: what has become of it, and what the flat array says it contains. *)
Definition used (n : nat) (os : list op) (f : file) (c : list Z) : Prop :=
  exists s vs a, run (opened New n) os = Ok (s, vs) /\ asteps (aopened [] n) os vs a /\ f = fst s /\ c = fst a /\ Forall (op_ok n) os.

(** Every history reaches such a state. *)
Theorem C21_every_history : forall n os, Forall (op_ok n) os -> exists f c, used n os f c.
Proof.
  intros n os H. destruct (C20_flat_new n os H) as (s & vs & a & R & A).
  exists (fst s), (fst a). exists s, vs, a. auto.
Qed.
Print Assumptions C21_every_history.

Lemma used_log : forall n os f c, used n os f c -> LogInv f.
Proof.
  intros n os f c (s & vs & a & R & A & -> & _). pose proof (ext_open n New) as E. pose proof (ext_run _ _ _ _ R) as E2.
  apply E2, E, LogInv_New.
Qed.
Lemma used_close : forall n os f c, used n os f c -> disk (Close f) = c.
Proof.
  intros n os f c (s & vs & a & R & A & -> & -> & Hok).
  destruct (opened_sim _ _ n Inv_New) as [S L].
  destruct (run_sim os _ _ S) as (s' & vs' & a' & E & A' & S'). { rewrite L. auto. }
  rewrite E in R. inversion R; subst s' vs'.
  destruct (step_sim s a' OClose S') as (s2 & v & a2 & E2 & A2 & S2 & _ & D). { exact Logic.I. }
  destruct s as [f rs]. cbn [step] in E2. inversion E2; subst. cbn [fst] in *.
  assert (Ea : a2 = a') by (inversion A2; reflexivity). subst a2. rewrite D by auto.
  destruct (C20_unique _ _ _ _ _ _ A' A) as [_ [Q _]]. exact Q.
Qed.

(** Before Register: whenever the program stops, every name but the temporary one denotes what it denoted before; in
    particular the final name does. *)
Theorem C21_invisible_before : forall n os f c d tmp reg k m,
  used n os f c -> m <> tmp -> applys d (firstn k (history f tmp reg)) m = d m.
Proof.
  intros n os f c d tmp reg k m _ H. apply applys_untouched. intros e He T. apply H.
  apply firstn_flat in He. unfold history in He. eapply evs_of_touch; eauto.
Qed.
Print Assumptions C21_invisible_before.

(** [reg]: the name given to New; [tmp]: the temporary name; [prev]: another File open on [reg], its work name and the
    temporary name it is moved to. *)
Definition names_ok (tmp reg : name) (prev : option (name * name)) : Prop :=
  reg <> [] /\ tmp <> reg /\ match prev with Some (w, t) => w <> tmp /\ t <> tmp /\ t <> reg | None => True end.
Definition moved (prev : option (name * name)) (m : name) : Prop :=
  match prev with Some (w, t) => m = w \/ m = t | None => False end.

Lemma dereg_touch : forall d reg prev e m, In e (Deregister d reg prev) -> touches e m -> moved prev m.
Proof.
  intros d reg prev e m H T. unfold Deregister in H. destruct (d reg); [|contradiction]. destruct prev as [[w t]|]; [|contradiction].
  destruct H as [H|[]]. subst e. exact T.
Qed.
(** The calls of Close, as contents of the OS file. *)
Lemma close_calls : forall n os f c x, used n os f c ->
  content (if fd f then Some (disk f) else x) (skipn (length (log f)) (log (Close f))) = Some c.
Proof.
  intros n os f c x U. pose proof (used_log _ _ _ _ U) as L. destruct (ext_Close f) as [E F].
  pose proof (used_close _ _ _ _ U) as D. destruct E as (E1 & E2). pose proof (E1 L) as [A _].
  rewrite (skipn_ext f (Close f)) in A by (split; auto). rewrite content_app in A. destruct L as [A0 A1].
  rewrite A0, F, D in A. destruct (fd f); auto. apply content_any. auto.
Qed.
Lemma history_content : forall n os f c d tmp reg, used n os f c -> fd f = true ->
  applys d (history f tmp reg) tmp = Some (disk f).
Proof.
  intros n os f c d tmp reg U F. unfold history. cbn [work_name]. rewrite evs_of_content.
  destruct (used_log _ _ _ _ U) as [A _]. rewrite F in A. apply content_any. auto.
Qed.

Lemma register_big : forall n os f c d tmp reg prev, used n os f c -> names_ok tmp reg prev -> fd f = true ->
  let d1 := applys d (history f tmp reg) in
  exists e1 e2 e3, Register d1 f tmp reg prev = e1 ++ e2 ++ e3 ++ [ERename tmp reg] /\
    (forall e m, In e e1 -> touches e m -> m = tmp) /\ (forall e m, In e e2 -> touches e m -> moved prev m) /\
    applys d1 (e1 ++ e2) tmp = Some c /\ e2 = Deregister d1 reg prev /\
    (e3 = [] \/ (e3 = [EUnlink reg] /\ applys d1 (e1 ++ e2) reg = None)).
Proof.
  intros n os f c d tmp reg prev U (N1 & N2 & N3) F d1. unfold Register. destruct reg as [|r0 reg]; [congruence|].
  rewrite F. set (rg := r0 :: reg) in *. set (calls := skipn _ _).
  set (e1 := evs_of tmp calls). set (e2 := Deregister (applys d1 e1) rg prev).
  assert (T1 : forall e m, In e e1 -> touches e m -> m = tmp) by (intros e m H T; eapply evs_of_touch; eauto).
  assert (E2 : e2 = Deregister d1 rg prev).
  { unfold e2, Deregister. rewrite applys_untouched; auto. intros e He T. apply N2. symmetry. eauto. }
  assert (T2 : forall e m, In e e2 -> touches e m -> moved prev m) by (intros e m H T; eapply dereg_touch; eauto).
  assert (C1 : applys d1 (e1 ++ e2) tmp = Some c).
  { rewrite applys_app, applys_untouched.
    - unfold e1. rewrite evs_of_content. unfold d1. rewrite (history_content _ _ _ _ d tmp rg U F).
      pose proof (close_calls _ _ _ _ None U) as Q. rewrite F in Q. exact Q.
    - intros e He T. pose proof (T2 _ _ He T) as Q. unfold moved in Q. destruct prev as [[w t]|]; [|auto]. destruct N3 as (? & ? & ?).
      destruct Q; congruence. }
  unfold Rename. rewrite C1. destruct (applys d1 (e1 ++ e2) rg) eqn:R.
  - exists e1, e2, []. cbn [app]. split; [reflexivity|]. split; auto. 
  - exists e1, e2, [EUnlink rg]. cbn [app]. split; [reflexivity|]. split; auto 7.
Qed.

(** After Register: the name denotes exactly the bytes written, no temporary file is left (unless one existed and was not
    used), and no other name has changed except those of the previous version, when it is open. *)
Theorem C21_registered : forall n os f c d tmp reg prev, used n os f c -> names_ok tmp reg prev ->
  let d1 := applys d (history f tmp reg) in
  let d2 := applys d1 (Register d1 f tmp reg prev) in
  d2 reg = Some c /\ (d tmp = None -> d2 tmp = None) /\ forall m, m <> tmp -> m <> reg -> ~ moved prev m -> d2 m = d m.
Proof.
  intros n os f c d tmp reg prev U N d1 d2. pose proof N as (N1 & N2 & N3). destruct (fd f) eqn:F.
  - destruct (register_big n os f c d tmp reg prev U N F) as (e1 & e2 & e3 & R & T1 & T2 & C & _ & E3). fold d1 in R, C, E3.
    unfold d2. rewrite R. rewrite app_assoc, applys_app. set (d3 := applys d1 (e1 ++ e2)) in *. rewrite applys_app.
    assert (C3 : applys d3 e3 tmp = Some c).
    { rewrite applys_untouched; auto. intros e He T. destruct E3 as [->|[-> _]]; [contradiction|].
      destruct He as [<-|[]]. cbn [touches] in T. congruence. }
    rewrite applys_cons. cbn [apply applys fold_left]. rewrite C3. unfold applys. cbn [fold_left]. split; [|split].
    + rewrite upd_neq by auto. apply upd_eq.
    + intros _. apply upd_eq.
    + intros m M1 M2 M3. rewrite !upd_neq by auto. fold (applys d3 e3).
      rewrite (applys_untouched e3).
      2:{ intros e He T. destruct E3 as [->|[-> _]]; [contradiction|]. destruct He as [<-|[]]. cbn [touches] in T. congruence. }
      unfold d3. rewrite applys_app, (applys_untouched e2) by (intros e He T; eauto).
      rewrite (applys_untouched e1) by (intros e He T; eauto).
      unfold d1. apply applys_untouched. intros e He T. apply M1. unfold history in He. eapply evs_of_touch; eauto.
  - destruct (used_log _ _ _ _ U) as [_ L]. specialize (L F).
    assert (D : d1 = d) by (unfold d1, history; rewrite L; reflexivity).
    unfold d2, Register. destruct reg as [|r0 reg]; [congruence|]. rewrite F. set (rg := r0 :: reg) in *.
    rewrite D in *. rewrite applys_app. cbn [work_name].
    assert (Q : forall m, ~ moved prev m -> applys d (Deregister d rg prev) m = d m).
    { intros m M. apply applys_untouched. intros e He T. apply M. eapply dereg_touch; eauto. }
    split; [|split].
    + rewrite evs_of_content. pose proof (close_calls _ _ _ _ (applys d (Deregister d rg prev) rg) U) as Q2. rewrite F in Q2. exact Q2.
    + intros H. rewrite (applys_untouched (evs_of _ _)).
      * rewrite Q; auto. unfold moved. destruct prev as [[w t]|]; auto. destruct N3 as (? & ? & ?). intros [?|?]; congruence.
      * intros e He T. apply N2. eapply evs_of_touch; eauto.
    + intros m M1 M2 M3. rewrite (applys_untouched (evs_of _ _)); auto. intros e He T. apply M2. eapply evs_of_touch; eauto.
Qed.
Print Assumptions C21_registered.

(** While Register runs: when the data has already outgrown the buffers and no other File is open on the name, every
    stop point leaves the old file or the complete new one under the name. *)
Theorem C21_atomic_partial : forall n os f c d tmp reg k, used n os f c -> names_ok tmp reg None -> fd f = true ->
  let d1 := applys d (history f tmp reg) in
  let dk := applys d1 (firstn k (Register d1 f tmp reg None)) in
  dk reg = d reg \/ dk reg = Some c.
Proof.
  intros n os f c d tmp reg k U N F d1 dk. pose proof N as (N1 & N2 & N3).
  destruct (register_big n os f c d tmp reg None U N F) as (e1 & e2 & e3 & R & T1 & T2 & C & E2 & E3). fold d1 in R, C, E2, E3.
  assert (Z2 : e2 = []). { rewrite E2. unfold Deregister. destruct (d1 reg); reflexivity. }
  rewrite Z2 in *. rewrite app_nil_r in *. cbn [app] in R.
  assert (D1 : d1 reg = d reg).
  { unfold d1. apply applys_untouched. intros e He T. apply N2. symmetry. unfold history in He. eapply evs_of_touch; eauto. }
  assert (De : forall j, applys d1 (firstn j e1) reg = d reg).
  { intro j. rewrite applys_untouched; auto. intros e He T. apply firstn_flat in He. apply N2. symmetry. eauto. }
  unfold dk. rewrite R. rewrite firstn_app. destruct (k - length e1)%nat as [|k'] eqn:K.
  - rewrite app_nil_r. left. apply De.
  - rewrite (firstn_all2 e1) by lia. rewrite applys_app.
    assert (Da : applys d1 e1 reg = d reg). { pose proof (De (length e1)) as Q. rewrite firstn_all in Q. auto. }
    destruct E3 as [->|[-> E3]]; cbn [app firstn]; unfold applys in C, Da |- *.
    + destruct k'; cbn [firstn fold_left apply]; rewrite C; right; rewrite upd_neq by auto; apply upd_eq.
    + unfold applys in E3. rewrite Da in E3. destruct k' as [|k']; cbn [firstn fold_left apply].
      * left. rewrite upd_eq. auto.
      * right. rewrite firstn_nil. cbn [fold_left]. rewrite upd_neq by auto. rewrite C. rewrite upd_neq by auto. apply upd_eq.
Qed.
Print Assumptions C21_atomic_partial.

(** Wherever Register stops, names other than the final one, the temporary one and those of the previous version are intact. *)
Theorem C21_others_intact : forall n os f c d tmp reg prev k m, used n os f c -> names_ok tmp reg prev ->
  m <> tmp -> m <> reg -> ~ moved prev m ->
  let d1 := applys d (history f tmp reg) in applys d1 (firstn k (Register d1 f tmp reg prev)) m = d m.
Proof.
  intros n os f c d tmp reg prev k m U N M1 M2 M3 d1. pose proof N as (N1 & N2 & N3).
  assert (D1 : d1 m = d m).
  { unfold d1. apply applys_untouched. intros e He T. apply M1. unfold history in He. eapply evs_of_touch; eauto. }
  rewrite applys_untouched; auto. intros e He T. apply firstn_flat in He. destruct (fd f) eqn:F.
  - destruct (register_big n os f c d tmp reg prev U N F) as (e1 & e2 & e3 & R & T1 & T2 & C & E2 & E3). fold d1 in R, E3.
    rewrite R in He. rewrite !in_app_iff in He. destruct He as [He|[He|[He|[He|[]]]]]; eauto.
    + destruct E3 as [->|[-> _]]; [contradiction|]. destruct He as [<-|[]]. cbn [touches] in T. congruence.
    + subst e. cbn [touches] in T. destruct T; congruence.
  - unfold Register in He. destruct reg as [|r0 reg]; [congruence|]. rewrite F in He. apply in_app_or in He. destruct He as [He|He].
    + apply M3. eapply dereg_touch; eauto.
    + apply M2. eapply evs_of_touch; eauto.
Qed.
Print Assumptions C21_others_intact.

(** The full claim "a stop at any point leaves the old or the complete new file" is false.  A file whose data fits in the
    buffers is registered by unlinking the old file first and writing the new one in place. *)
Definition small : file := fst (fst (match run (opened New 1) [OWriteBytes 0 [1; 2; 3] 3] with Ok r => r | _ => ((New, []), []) end)).
Definition d_old : dir := fun m => if name_eqb m [120] then Some [9; 9] else None.
Lemma small_used : used 1 [OWriteBytes 0 [1; 2; 3] 3] small [1; 2; 3].
Proof.
  assert (H : Forall (op_ok 1) [OWriteBytes 0 [1; 2; 3] 3]) by (repeat constructor; cbn; lia).
  destruct (C20_flat_new 1 _ H) as (s & vs & a & R & A). exists s, vs, a. split; auto. split; auto.
  split; [unfold small; rewrite R; reflexivity|]. split; auto.
  inversion A as [|? ? ? ? ? ? ? A1 A2]; subst. inversion A2; subst. inversion A1; subst; try (exfalso; unfold zlen in *; cbn in *; lia).
  match goal with H : nth_error _ 0 = Some _ |- _ => inversion H; subst end. cbn [fst a_pos]. reflexivity.
Qed.
Theorem C21_lost_old_file_refuted : exists n os f c d tmp reg k, used n os f c /\ names_ok tmp reg None /\ d reg = Some [9; 9] /\
  let d1 := applys d (history f tmp reg) in applys d1 (firstn k (Register d1 f tmp reg None)) reg = None.
Proof.
  exists 1%nat, [OWriteBytes 0 [1; 2; 3] 3], small, [1; 2; 3], d_old, [116], [120], 1%nat.
  split; [apply small_used|]. split; [split; [discriminate|split; [discriminate|exact Logic.I]]|]. split; [reflexivity|].
  vm_compute. reflexivity.
Qed.
Print Assumptions C21_lost_old_file_refuted.
Theorem C21_partial_file_refuted : exists n os f c d tmp reg k, used n os f c /\ names_ok tmp reg None /\ d reg = Some [9; 9] /\
  let d1 := applys d (history f tmp reg) in
  exists x, applys d1 (firstn k (Register d1 f tmp reg None)) reg = Some x /\ x <> [9; 9] /\ x <> c.
Proof.
  exists 1%nat, [OWriteBytes 0 [1; 2; 3] 3], small, [1; 2; 3], d_old, [116], [120], 2%nat.
  split; [apply small_used|]. split; [split; [discriminate|split; [discriminate|exact Logic.I]]|]. split; [reflexivity|].
  exists []. split; [vm_compute; reflexivity|split; discriminate].
Qed.
Print Assumptions C21_partial_file_refuted.

(** With the previous version open, even a file with a temporary file has a stop point at which the name is gone. *)
Definition closed : file := fst (fst (match run (opened New 1) [OWriteBytes 0 [1; 2; 3] 3; OClose] with Ok r => r | _ => ((New, []), []) end)).
Lemma closed_used : used 1 [OWriteBytes 0 [1; 2; 3] 3; OClose] closed [1; 2; 3].
Proof.
  assert (H : Forall (op_ok 1) [OWriteBytes 0 [1; 2; 3] 3; OClose]) by (repeat constructor; cbn; lia).
  destruct (C20_flat_new 1 _ H) as (s & vs & a & R & A). exists s, vs, a. split; auto. split; auto.
  split; [unfold closed; rewrite R; reflexivity|]. split; auto.
  inversion A as [|? ? ? ? ? ? ? A1 A2]; subst. inversion A2 as [|? ? ? ? ? ? ? A3 A4]; subst. inversion A4; subst.
  inversion A3; subst. inversion A1; subst; try (exfalso; unfold zlen in *; cbn in *; lia).
  match goal with H : nth_error _ 0 = Some _ |- _ => inversion H; subst end. reflexivity.
Qed.
Theorem C21_open_previous_refuted : exists n os f c d tmp reg prev k, used n os f c /\ names_ok tmp reg (Some prev) /\ fd f = true /\
  d reg = Some [9; 9] /\
  let d1 := applys d (history f tmp reg) in applys d1 (firstn k (Register d1 f tmp reg (Some prev))) reg = None.
Proof.
  exists 1%nat, [OWriteBytes 0 [1; 2; 3] 3; OClose], closed, [1; 2; 3], d_old, [116], [120], ([120], [117]), 1%nat.
  split; [apply closed_used|].
  split; [split; [discriminate|split; [discriminate|split; [discriminate|split; discriminate]]]|]. split; [vm_compute; reflexivity|].
  split; [reflexivity|]. vm_compute. reflexivity.
Qed.
Print Assumptions C21_open_previous_refuted.

(** Non-vacuity: a file that has its temporary file already, over an existing file. *)
Example C21_nonvacuous : used 1 [OWriteBytes 0 [1; 2; 3] 3; OClose] closed [1; 2; 3] /\ names_ok [116] [120] None /\ fd closed = true /\
  let d1 := applys d_old (history closed [116] [120]) in
  d1 [120] = Some [9; 9] /\ d1 [116] = Some [1; 2; 3] /\ applys d1 (Register d1 closed [116] [120] None) [120] = Some [1; 2; 3].
Proof.
  split; [apply closed_used|]. split; [split; [discriminate|split; [discriminate|exact Logic.I]]|].
  vm_compute. auto.
Qed.
