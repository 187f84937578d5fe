From Verif Require Import Base ArrZ FilesModel FilesSpec FilesProofs FilesProps RegisterModel.

(** Content of the OS file after a list of calls. *)
Definition content1 (c : option (list Z)) (s : sysop) : option (list Z) :=
  match s with
  | SCreate => Some []
  | SWrite p xs => match c with Some c => Some (put c p xs) | None => None end
  | STruncate => match c with Some _ => Some [] | None => None end
  end.
Definition content (c : option (list Z)) (l : list sysop) : option (list Z) := fold_left content1 l c.
Lemma content_app : forall c a b, content c (a ++ b) = content (content c a) b.
Proof. intros. unfold content. apply fold_left_app. Qed.

Definition LogInv (f : file) : Prop := content None (log f) = (if fd f then Some (disk f) else None) /\ (fd f = false -> log f = []).
(** g comes after f. *)
Definition ext (f g : file) : Prop := (LogInv f -> LogInv g) /\ (exists l, log g = log f ++ l) /\ (fd f = true -> fd g = true).
Lemma ext_refl : forall f, ext f f.
Proof. intro f. split; [auto|]. split; [|auto]. exists []. rewrite app_nil_r. reflexivity. Qed.
Lemma ext_trans : forall f g h, ext f g -> ext g h -> ext f h.
Proof.
  intros f g h (A1 & (l1 & B1) & C1) (A2 & (l2 & B2) & C2). split; [auto|]. split; [|auto].
  exists (l1 ++ l2). rewrite B2, B1, app_assoc. reflexivity.
Qed.
Lemma ext_same : forall f g, log g = log f -> fd g = fd f -> disk g = disk f -> ext f g.
Proof.
  intros f g L F D. split; [|split; [exists []; rewrite app_nil_r; auto|congruence]].
  unfold LogInv. rewrite L, F, D. auto.
Qed.
Lemma ext_Create : forall f, ext f (Create f) /\ fd (Create f) = true.
Proof.
  intro f. unfold Create. destruct (fd f) eqn:E; [split; [apply ext_refl|auto]|]. split; [|reflexivity].
  split; [|split; [fcbn; eauto|fcbn; auto]]. intros [A B]. rewrite (B E) in *.
  split; fcbn; [reflexivity|discriminate].
Qed.
Lemma ext_write : forall f xs, fd f = true -> ext f (os_write f xs).
Proof.
  intros f xs H. split; [|split; [unfold os_write; fcbn; eauto|auto]]. intros [A B]. unfold LogInv, os_write. fcbn.
  rewrite content_app, A, H. split; [reflexivity|discriminate].
Qed.
Lemma ext_Flush : forall f b, ext f (Flush f b).
Proof.
  intros f b. unfold Flush. destruct (b_chg (bget f b)); [|apply ext_refl].
  destruct (ext_Create f) as [A F]. set (g := Create f) in *. eapply ext_trans; [exact A|].
  set (x := bget f b).
  assert (G : ext g (if negb (b_org x =? fpos g) then os_seek g (b_org x) else g)).
  { destruct (negb _); [apply ext_same; reflexivity|apply ext_refl]. }
  eapply ext_trans; [exact G|]. set (h := if negb (b_org x =? fpos g) then _ else _) in *.
  eapply ext_trans; [apply ext_write|]; [|apply ext_same; reflexivity]. destruct G as (_ & _ & Q). auto.
Qed.
Lemma ext_pick : forall f org, ext f (fst (pick f org)).
Proof.
  intros f org. unfold pick. destruct (_ <? _)%nat.
  - destruct (nth _ (slots f) None); cbn [fst]; [apply ext_refl|apply ext_same; reflexivity].
  - cbn [slots]. destruct (nth _ (slots f) None); cbn [fst].
    + eapply ext_trans; [|apply ext_Flush]. apply ext_same; reflexivity.
    + apply ext_same; reflexivity.
Qed.
Lemma ext_load : forall f b org, ext f (load f b org).
Proof.
  intros f b org. unfold load. destruct (_ =? org); [apply ext_refl|]. destruct (org =? flen f); [apply ext_same; reflexivity|].
  destruct (ext_Create f) as [A F]. eapply ext_trans; [exact A|].
  destruct (negb (fpos (Create f) =? org)); cbn [os_read]; apply ext_same; reflexivity.
Qed.
Lemma ext_Set : forall f pos, ext f (fst (Set_ f pos)).
Proof.
  intros f pos. unfold Set_. set (p := if pos >? flen f then _ else _). clearbody p.
  pose proof (ext_pick f (p - p mod BufSize)) as A. destruct (pick f (p - p mod BufSize)) as [g b]. cbn [fst] in *.
  eapply ext_trans; [exact A|apply ext_load].
Qed.
Lemma ext_setif : forall (c : bool) f r p, ext f (fst (if c then Set_ f p else (f, r))).
Proof. intros. destruct c; [apply ext_Set|apply ext_refl]. Qed.

Ltac invok H := match type of H with
  | bind ?m _ = Ok _ => let E := fresh "E" in destruct m eqn:E; cbn [bind] in H; try discriminate
  end.
Lemma ext_Read : forall f r x g r', Read f r = Ok (x, g, r') -> ext f g.
Proof.
  intros f r x g r' H. unfold Read in H.
  pose proof (ext_setif (negb (r_org r =? b_org (bget f (r_buf r)))) f r (r_org r + r_offset r)) as A.
  destruct (if negb (r_org r =? b_org (bget f (r_buf r))) then Set_ f (r_org r + r_offset r) else (f, r)) as [f1 r1].
  cbn [fst] in A. invok H. destruct (r_offset r1 <? b_size (bget f1 (r_buf r1))); [inversion H; subst; auto|].
  destruct (r_org r1 + r_offset r1 <? flen f1); [|inversion H; subst; auto].
  pose proof (ext_Set f1 (r_org r1 + r_offset r1)) as B. destruct (Set_ f1 (r_org r1 + r_offset r1)) as [f2 r2].
  inversion H; subst. eapply ext_trans; eauto.
Qed.
Lemma ext_readbytes : forall k f r acc n xs g r', readbytes_loop k f r acc n = Ok (xs, g, r') -> ext f g.
Proof.
  induction k; intros f r acc n xs g r' H; cbn [readbytes_loop] in H; [discriminate|].
  destruct (n >? 0); [|inversion H; subst; apply ext_refl].
  pose proof (ext_setif (negb (r_org r =? b_org (bget f (r_buf r))) || (r_offset r >=? BufSize)) f r (r_org r + r_offset r)) as A.
  destruct (if negb (r_org r =? b_org (bget f (r_buf r))) || (r_offset r >=? BufSize) then Set_ f (r_org r + r_offset r) else (f, r)) as [f1 r1].
  cbn [fst] in A. cbv zeta in H. destruct (b_size (bget f1 (r_buf r1)) - r_offset r1 =? 0); [inversion H; subst; auto|].
  invok H. apply IHk in H. eapply ext_trans; eauto.
Qed.
Lemma ext_Write : forall f r x g r', Write f r x = Ok (g, r') -> ext f g.
Proof.
  intros f r x g r' H. unfold Write in H. invok H.
  pose proof (ext_setif (negb (r_org r =? b_org (bget f (r_buf r))) || (r_offset r >=? BufSize)) f r (r_org r + r_offset r)) as A.
  destruct (if negb (r_org r =? b_org (bget f (r_buf r))) || (r_offset r >=? BufSize) then Set_ f (r_org r + r_offset r) else (f, r)) as [f1 r1].
  cbn [fst] in A. invok H. inversion H; subst. eapply ext_trans; [exact A|].
  destruct (r_offset r1 =? b_size (bget f1 (r_buf r1))); apply ext_same; reflexivity.
Qed.
Lemma ext_writebytes : forall k f r xs g r', writebytes_loop k f r xs = Ok (g, r') -> ext f g.
Proof.
  induction k; intros f r xs g r' H; cbn [writebytes_loop] in H; [discriminate|].
  destruct (zlen xs >? 0); [|inversion H; subst; apply ext_refl]. invok H.
  pose proof (ext_setif (negb (r_org r =? b_org (bget f (r_buf r))) || (r_offset r >=? BufSize)) f r (r_org r + r_offset r)) as A.
  destruct (if negb (r_org r =? b_org (bget f (r_buf r))) || (r_offset r >=? BufSize) then Set_ f (r_org r + r_offset r) else (f, r)) as [f1 r1].
  cbn [fst] in A. cbv zeta in H. invok H. invok H. apply IHk in H. eapply ext_trans; [exact A|]. eapply ext_trans; [|exact H].
  match goal with |- ext _ (if ?c then _ else _) => destruct c end; apply ext_same; reflexivity.
Qed.
Lemma ext_flush_all : forall sl f, ext f (flush_all f sl).
Proof.
  induction sl as [|[b|] sl IH]; intro f; cbn [flush_all]; try apply ext_refl.
  eapply ext_trans; [apply ext_Flush|apply IH].
Qed.
Lemma ext_Close : forall f, ext f (Close f) /\ fd (Close f) = true.
Proof.
  intro f. unfold Close. destruct (ext_Create f) as [A F]. pose proof (ext_flush_all (slots (Create f)) (Create f)) as B.
  split; [eapply ext_trans; eauto|]. destruct B as (_ & _ & B). auto.
Qed.
Lemma ext_Purge : forall f, ext f (Purge f).
Proof.
  intro f. unfold Purge. split; [|split; [|auto]].
  - intros [A B]. unfold LogInv. fcbn. destruct (fd f) eqn:E.
    + rewrite content_app, A. split; [reflexivity|discriminate].
    + auto.
  - fcbn. destruct (fd f); [eauto|exists []; rewrite app_nil_r; auto].
Qed.
Lemma ext_step : forall s o s' v, step s o = Ok (s', v) -> ext (fst s) (fst s').
Proof.
  intros [f rs] o s' v H. destruct o; cbn [step] in H; cbn [fst].
  - invok H. pose proof (ext_Set f pos) as A. destruct (Set_ f pos). inversion H; subst. exact A.
  - invok H. invok H. destruct a0 as [[x g] r']. inversion H; subst. apply ext_Read in E0. exact E0.
  - invok H. invok H. destruct a0 as [[x g] r']. inversion H; subst. unfold ReadBytes in E0. destruct (n >? lx); [discriminate|].
    apply ext_readbytes in E0. exact E0.
  - invok H. invok H. destruct a0 as [g r']. inversion H; subst. apply ext_Write in E0. exact E0.
  - invok H. invok H. destruct a0 as [g r']. inversion H; subst. unfold WriteBytes in E0. destruct (n >? zlen x); [discriminate|].
    apply ext_writebytes in E0. exact E0.
  - invok H. invok H. inversion H; subst. apply ext_refl.
  - inversion H; subst. apply ext_refl.
  - inversion H; subst. apply ext_Purge.
  - inversion H; subst. apply ext_Close.
Qed.
Lemma ext_run : forall os s s' vs, run s os = Ok (s', vs) -> ext (fst s) (fst s').
Proof.
  induction os as [|o os IH]; intros s s' vs H; cbn [run] in H; [inversion H; subst; apply ext_refl|].
  invok H. destruct a as [s1 v]. invok H. destruct a as [s2 vs2]. inversion H; subst.
  eapply ext_trans; [eapply ext_step; eauto|eapply IH; eauto].
Qed.
Lemma ext_open : forall n f, ext f (fst (open_riders f n)).
Proof.
  induction n; intro f; cbn [open_riders]; [apply ext_refl|]. pose proof (ext_Set f 0) as A. destruct (Set_ f 0) as [g r].
  pose proof (IHn g) as B. destruct (open_riders g n) as [h rs]. cbn [fst] in *. eapply ext_trans; eauto.
Qed.
Lemma LogInv_New : LogInv New.
Proof. split; [reflexivity|auto]. Qed.

(** The directory. *)
Lemma name_eqb_refl : forall n, name_eqb n n = true.
Proof. intro n. unfold name_eqb. destruct (list_eq_dec Z.eq_dec n n); congruence. Qed.
Lemma name_eqb_neq : forall a b, a <> b -> name_eqb a b = false.
Proof. intros a b H. unfold name_eqb. destruct (list_eq_dec Z.eq_dec a b); congruence. Qed.
Lemma upd_eq : forall d n c, upd d n c n = c.
Proof. intros. unfold upd. rewrite name_eqb_refl. reflexivity. Qed.
Lemma upd_neq : forall d n c m, m <> n -> upd d n c m = d m.
Proof. intros. unfold upd. rewrite name_eqb_neq; auto. Qed.
Lemma applys_app : forall d a b, applys d (a ++ b) = applys (applys d a) b.
Proof. intros. unfold applys. apply fold_left_app. Qed.
Lemma applys_cons : forall d e l, applys d (e :: l) = applys (apply d e) l.
Proof. reflexivity. Qed.

(** Names an event touches. *)
Definition touches (e : ev) (n : name) : Prop :=
  match e with
  | EUnlink m | ECreate m | EWrite m _ _ | ETruncate m => n = m
  | ERename a b => n = a \/ n = b
  end.
Lemma apply_untouched : forall d e n, ~ touches e n -> apply d e n = d n.
Proof.
  intros d e n H. destruct e; cbn [touches apply] in *; try (apply upd_neq; auto; fail).
  - destruct (d n0); auto. apply upd_neq; auto.
  - destruct (d n0); auto. apply upd_neq; auto.
  - destruct (d a); auto. rewrite !upd_neq; auto.
Qed.
Lemma applys_untouched : forall es d n, (forall e, In e es -> ~ touches e n) -> applys d es n = d n.
Proof.
  induction es as [|e es IH]; intros d n H; [reflexivity|]. rewrite applys_cons, IH, apply_untouched; auto.
  - apply H. left; auto.
  - intros e' H'. apply H. right; auto.
Qed.
Lemma evs_of_touch : forall w l e n, In e (evs_of w l) -> touches e n -> n = w.
Proof.
  intros w l e n H T. unfold evs_of in H. apply in_flat_map in H. destruct H as (s & _ & H).
  destruct s; cbn [ev_of In] in H; destruct H as [H|H]; try destruct H as [H|H]; try contradiction; subst e; cbn [touches] in T; auto.
Qed.
Lemma evs_of_content : forall l w d, applys d (evs_of w l) w = content (d w) l.
Proof.
  induction l as [|s l IH]; intros w d; [reflexivity|].
  unfold evs_of. cbn [flat_map]. fold (evs_of w l). rewrite applys_app, IH. unfold content. cbn [fold_left]. f_equal.
  destruct s; cbn [ev_of content1]; unfold applys; cbn [fold_left apply].
  - apply upd_eq.
  - destruct (d w) eqn:E; [apply upd_eq|auto].
  - destruct (d w) eqn:E; [apply upd_eq|auto].
Qed.
Lemma content_any : forall l c c', content None l = Some c -> content c' l = Some c.
Proof.
  intros l c c' H. destruct c' as [c'|]; [|auto]. revert c' H. induction l as [|s l IH]; intros c' H; [discriminate|].
  unfold content in *. cbn [fold_left] in *. destruct s; cbn [content1] in *; auto.
Qed.
Lemma skipn_ext : forall f g, ext f g -> log g = log f ++ skipn (length (log f)) (log g).
Proof.
  intros f g (_ & (l & E) & _). rewrite E, skipn_app, skipn_all, Nat.sub_diag. reflexivity.
Qed.
Lemma firstn_flat : forall (A : Type) (l : list A) k x, In x (firstn k l) -> In x l.
Proof. intros A l k x H. rewrite <- (firstn_skipn k l). apply in_or_app. auto. Qed.
