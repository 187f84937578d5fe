(** Proofs about declarations: the structures made are the ones described. *)
From Verif Require Import Base DeclModel DeclSpec DeclProofs.
Open Scope nat_scope.

Lemma all_Forall2 : forall h lo env fs rs,
  (fix all (fs : list texp) (rs : list nat) : Prop :=
     match fs, rs with [], [] => True | f :: fs, r :: rs => denotes h lo env f r /\ all fs rs | _, _ => False end) fs rs <-> Forall2 (denotes h lo env) fs rs.
Proof.
  intros h lo env. induction fs as [|f fs IH]; intros [|r rs]; split; intro H; try tauto; try (inversion H; fail).
  - constructor. - destruct H as [H1 H2]. constructor; [auto|apply IH; auto].
  - inversion H; subst. split; [auto|apply IH; auto].
Qed.
Lemma denotes_rec : forall h lo env bo fs s, denotes h lo env (TRec bo fs) s <->
  lo <= s /\ exists b rs, nth_error h s = Some (SRec b rs) /\ match bo, b with None, None => True | Some n, Some x => env n = Some (OTyp x) | _, _ => False end /\ Forall2 (denotes h lo env) fs rs.
Proof. intros. cbn [denotes]. apply and_iff_compat_l. split; intros (b & rs & H1 & H2 & H3); exists b, rs; (split; [exact H1|split; [exact H2|apply all_Forall2; exact H3]]). Qed.
Lemma denotes_proc : forall h lo env ps res s, denotes h lo env (TProc ps res) s <->
  lo <= s /\ exists rs r, nth_error h s = Some (SProc rs r) /\ match res with None => r = 1 | Some n => env n = Some (OTyp r) end /\ Forall2 (denotes h lo env) ps rs.
Proof. intros. cbn [denotes]. apply and_iff_compat_l. split; intros (b & rs & H1 & H2 & H3); exists b, rs; (split; [exact H1|split; [exact H2|apply all_Forall2; exact H3]]). Qed.
Lemma Forall2_imp : forall {A B} (P Q : A -> B -> Prop) l l', Forall (fun a => forall b, P a b -> Q a b) l -> Forall2 P l l' -> Forall2 Q l l'.
Proof. intros A B P Q l l' H F. induction F; constructor; inversion H; subst; auto. Qed.

(** [denotes] from [lo] on does not depend on the structures before [lo]. *)
Lemma denotes_frame : forall t h h' lo env s, (forall y, lo <= y < length h -> nth_error h' y = nth_error h y) -> denotes h lo env t s -> denotes h' lo env t s.
Proof.
  induction t as [n|t IH|t IH|bo fs IH|t IH|ps r IH] using texp_ind2; intros h h' lo env s F H; rewrite ?denotes_rec, ?denotes_proc in *; cbn [denotes] in *; auto.
  - destruct H as (L & b & E & D). split; auto. exists b. rewrite F by (split; auto; eapply nth_lt; eauto). eauto.
  - destruct H as (L & b & E & D). split; auto. exists b. rewrite F by (split; auto; eapply nth_lt; eauto). eauto.
  - destruct H as (L & b & rs & E & B & D). split; auto. exists b, rs. rewrite F by (split; auto; eapply nth_lt; eauto). split; [auto|]. split; [auto|].
    eapply Forall2_imp; [|exact D]. eapply Forall_impl; [|exact IH]. cbn. intros a Ha b' Hb. eapply Ha; eauto.
  - destruct H as (L & b & nm & E & D). split; auto. exists b, nm. rewrite F by (split; auto; eapply nth_lt; eauto). eauto.
  - destruct H as (L & b & rs & E & B & D). split; auto. exists b, rs. rewrite F by (split; auto; eapply nth_lt; eauto). split; [auto|]. split; [auto|].
    eapply Forall2_imp; [|exact D]. eapply Forall_impl; [|exact IH]. cbn. intros a Ha b' Hb. eapply Ha; eauto.
Qed.
Lemma denotes_weak : forall t h lo lo' env env' s, lo' <= lo -> (forall n o, env n = Some o -> env' n = Some o) -> denotes h lo env t s -> denotes h lo' env' t s.
Proof.
  induction t as [n|t IH|t IH|bo fs IH|t IH|ps r IH] using texp_ind2; intros h lo lo' env env' s L0 F H; rewrite ?denotes_rec, ?denotes_proc in *; cbn [denotes] in *; auto.
  - destruct H as (L & b & E & D). split; [lia|]. eauto.
  - destruct H as (L & b & E & D). split; [lia|]. eauto.
  - destruct H as (L & b & rs & E & B & D). split; [lia|]. exists b, rs. split; [auto|]. split; [destruct bo, b; auto|].
    eapply Forall2_imp; [|exact D]. eapply Forall_impl; [|exact IH]. cbn. intros a Ha b' Hb. eapply Ha; eauto.
  - destruct H as (L & b & nm & E & D). split; [lia|]. eauto.
  - destruct H as (L & b & rs & E & B & D). split; [lia|]. exists b, rs. split; [auto|]. split; [destruct r; auto|].
    eapply Forall2_imp; [|exact D]. eapply Forall_impl; [|exact IH]. cbn. intros a Ha b' Hb. eapply Ha; eauto.
Qed.
(** Later declarations name pointers and give waiting pointers their base. *)
Definition keeps (h h' : list struct) : Prop := forall y q, nth_error h y = Some q ->
  nth_error h' y = Some q \/ exists b nm nm' r, q = SPtr b nm /\ nth_error h' y = Some (SPtr r nm') /\ (b <> 0 -> r = b).
Lemma keeps_refl : forall h, keeps h h. Proof. intros h y q E. auto. Qed.
Lemma keeps_trans : forall a b c, keeps a b -> keeps b c -> keeps a c.
Proof.
  intros a b c H1 H2 y q E. destruct (H1 y q E) as [E1|(x & nm & nm' & r & -> & E1 & R)]; [auto|].
  destruct (H2 y _ E1) as [E2|(x' & n1 & n2 & r' & Q & E2 & R')]; right.
  - exists x, nm, nm', r. auto.
  - injection Q as -> ->. exists x, nm, n2, r'. split; auto. split; auto. intro N. specialize (R N). subst. auto.
Qed.
Lemma denotes_nz : forall t h lo env s, nth_error h 0 = Some SUndef -> (forall n, env n <> Some (OTyp 0)) -> denotes h lo env t s -> s <> 0.
Proof.
  intros t h lo env s Z N D ->. destruct t; rewrite ?denotes_rec, ?denotes_proc in *; cbn [denotes] in D; try (apply (N n); exact D; fail); destruct D as (_ & b & E);
    repeat match goal with H : exists _, _ |- _ => destruct H | H : _ /\ _ |- _ => destruct H end; congruence.
Qed.
Lemma denotes_keeps : forall t h h' lo env s, nth_error h 0 = Some SUndef -> (forall n, env n <> Some (OTyp 0)) -> keeps h h' -> denotes h lo env t s -> denotes h' lo env t s.
Proof.
  induction t as [n|t IH|t IH|bo fs IH|t IH|ps r IH] using texp_ind2; intros h h' lo env s Z N F H; rewrite ?denotes_rec, ?denotes_proc in *; cbn [denotes] in *; auto.
  - destruct H as (L & b & E & D). split; auto. exists b. destruct (F _ _ E) as [->|(x & nm & nm' & r & Q & _)]; [eauto|discriminate].
  - destruct H as (L & b & E & D). split; auto. exists b. destruct (F _ _ E) as [->|(x & nm & nm' & r & Q & _)]; [eauto|discriminate].
  - destruct H as (L & b & rs & E & B & D). split; auto. exists b, rs. destruct (F _ _ E) as [->|(x & nm & nm' & r & Q & _)]; [|discriminate]. split; [auto|]. split; [auto|].
    eapply Forall2_imp; [|exact D]. eapply Forall_impl; [|exact IH]. cbn. intros a Ha b' Hb. eapply (Ha h); eauto.
  - destruct H as (L & b & nm & E & D). split; auto. pose proof (denotes_nz _ _ _ _ _ Z N D) as NZ. destruct (F _ _ E) as [->|(x & nm1 & nm' & r & Q & -> & R)]; [eauto|].
    injection Q as <- <-. exists r, nm'. rewrite (R NZ). eauto.
  - destruct H as (L & b & rs & E & B & D). split; auto. exists b, rs. destruct (F _ _ E) as [->|(x & nm & nm' & q & Q & _)]; [|discriminate]. split; [auto|]. split; [auto|].
    eapply Forall2_imp; [|exact D]. eapply Forall_impl; [|exact IH]. cbn. intros a Ha b' Hb. eapply (Ha h); eauto.
Qed.

(** * One type *)
Definition same_env (st st' : state) : Prop := loc st' = loc st /\ out st' = out st.
Definition frame (P : nat -> Prop) (st st' : state) : Prop :=
  same_env st st' /\ length (heap st) <= length (heap st') /\ forall y, y < length (heap st) -> ~ P y -> nth_error (heap st') y = nth_error (heap st) y.
Lemma frame_refl : forall P st, frame P st st. Proof. intros. repeat split; auto. Qed.
Lemma frame_trans : forall P a b c, frame P a b -> frame P b c -> frame P a c.
Proof. intros P a b c ([A1 A2] & A3 & A4) ([B1 B2] & B3 & B4). split; [split; congruence|]. split; [lia|]. intros y Hy N. rewrite B4 by (auto; lia). auto. Qed.
Lemma frame_imp : forall (P Q : nat -> Prop) a b, (forall y, P y -> Q y) -> frame P a b -> frame Q a b.
Proof. intros P Q a b H (A & B & C). split; [auto|]. split; [auto|]. intros y Hy N. apply C; auto. Qed.
Lemma same_lookup : forall st st' n, same_env st st' -> lookup st' n = lookup st n.
Proof. intros st st' n [A B]. unfold lookup. rewrite A, B. reflexivity. Qed.
Definition body_den (t : texp) : Prop := forall b s st, is_name t = false -> nth_error (heap st) s = Some (init t) -> errs (body t s b st) = errs st ->
  frame (eq s) st (body t s b st) /\
  ((denotes (heap (body t s b st)) s (lookup st) t s /\ fwd (body t s b st) = fwd st) \/
   exists m, t = TPtr (TName m) /\ lookup st m = None /\ nth_error (heap (body t s b st)) s = Some (SPtr 0 false) /\ fwd (body t s b st) = fwd st ++ [(s, m, false)]).
Definition sub_den (t : texp) : Prop := forall l b st, inner l st -> errs (fst (sub t l b st)) = errs st ->
  let st' := fst (sub t l b st) in let r := snd (sub t l b st) in
  frame (owner l) st st' /\ (forall y, owner l y -> nth_error (heap st') y = option_map (fun q => newbase q r) (nth_error (heap st) y)) /\
  denotes (heap st') (length (heap st)) (lookup st) t r /\ fwd st' = fwd st.
Lemma chkptr_heap : forall r st, heap (chkptr r st) = heap st /\ loc (chkptr r st) = loc st /\ out (chkptr r st) = out st /\ fwd (chkptr r st) = fwd st.
Proof. intros. unfold chkptr. destruct (nth_error (heap st) r) as [[]|]; auto. destruct b; auto. destruct named; auto. Qed.
Lemma den_sub : forall t, body_den t -> sub_den t.
Proof.
  intros t BD l b st Hl E. unfold sub in *. destruct (is_name t) eqn:EN.
  - destruct t as [n| | | | |]; try discriminate EN. unfold hdr in *.
    assert (same_env st (store l 0 st)) as SE. { destruct l as [m|x|]; [destruct Hl| |split; reflexivity]. destruct (setbase_rest x 0 st) as (A1 & A2 & _). split; auto. }
    rewrite (same_lookup _ _ n SE) in *. destruct (lookup st n) as [[s|]|] eqn:Lk; cbn [fst snd] in *.
    + destruct (is_banned b (store l 0 st) s); cbn [fst snd body] in *.
      * exfalso. destruct (more_chkptr 0 (err 58 (store l 0 st))) as [e Q]. rewrite Q in E. apply (f_equal (@length Z)) in E. rewrite app_length in E. cbn in E. rewrite errs_store in E. lia.
      * destruct (chkptr_heap s (store l s (store l 0 st))) as (C1 & C2 & C3 & C4). unfold frame, same_env. rewrite C1, C2, C3, C4. cbn [denotes].
        destruct l as [m|x|]; [destruct Hl| |].
        -- cbn [store] in *. destruct (setbase_heap x 0 st) as (L0 & O0 & S0). destruct (setbase_rest x 0 st) as (A1 & A2 & A3 & A4). set (st0 := setbase x 0 st) in *.
           destruct (setbase_heap x s st0) as (L2 & O2 & S2). destruct (setbase_rest x s st0) as (B1 & B2 & B3 & B4). rewrite B1, B2, B3, L2.
           split; [|split; [|split; [exact Lk|congruence]]].
           ++ split; [split; auto|]. split; [lia|]. intros y Hy N. assert (y <> x) as NE by (intro; subst; apply N; reflexivity). rewrite O2, O0 by auto. reflexivity.
           ++ intros y Hy. injection Hy as <-. rewrite S2, S0. destruct (nth_error (heap st) x); cbn [option_map]; [rewrite newbase_twice|]; reflexivity.
        -- cbn [store]. repeat split; auto. intros y Hy. discriminate Hy.
    + exfalso. cbn [body] in E. destruct (more_chkptr 0 (err 52 (store l 0 st))) as [e Q]. rewrite Q in E. apply (f_equal (@length Z)) in E. rewrite app_length in E. cbn in E. rewrite errs_store in E. lia.
    + exfalso. cbn [body] in E. destruct (more_chkptr 0 (err 52 (err 0 (store l 0 st)))) as [e Q]. rewrite Q in E. apply (f_equal (@length Z)) in E. rewrite app_length in E. cbn in E. rewrite errs_store in E. lia.
  - destruct (hdr_heap t l b st EN Hl) as (H1 & H2 & H3 & H4 & H5 & H6 & H7 & H8 & H9). cbv zeta in *.
    pose proof (more_hdr t l b st) as M1. destruct (hdr t l b st) as [st1 r]. cbn [fst snd] in *. subst r. set (r := length (heap st)) in *.
    pose proof (more_body t r b st1) as M2. pose proof (more_chkptr r (body t r b st1)) as M3.
    assert (errs (body t r b st1) = errs st1 /\ errs (chkptr r (body t r b st1)) = errs (body t r b st1)) as [E1 E2].
    { destruct (more_squeeze _ _ _ M1 (more_trans _ _ _ M2 M3) E) as [_ Q]. destruct (more_squeeze _ _ _ M2 M3 Q). auto. }
    destruct (BD b r st1 EN H5 E1) as (FR & D). destruct (chkptr_heap r (body t r b st1)) as (C1 & C2 & C3 & C4).
    assert (same_env st st1) as SE by (split; auto).
    destruct D as [[D DF]|(m & -> & _ & W & _)].
    + destruct FR as ([F1 F2] & F3 & F4). unfold frame, same_env. rewrite C1, C2, C3, C4. split; [|split; [|split; [|congruence]]].
      * split; [split; congruence|]. split; [lia|]. intros y Hy N. rewrite F4 by lia. auto.
      * intros y Hy. assert (y < r) as Ly. { unfold owner in Hy. subst l. exact Hl. } rewrite F4 by lia. apply H4. auto.
      * eapply denotes_weak; [|intros n o Hn|exact D]; [lia|]. rewrite (same_lookup st st1) in Hn; auto.
    + exfalso. unfold chkptr in E2. rewrite W in E2. apply (f_equal (@length Z)) in E2. cbn in E2. lia.
Qed.

Lemma frame_sub : forall (P Q : nat -> Prop) a b c, frame P a b -> frame Q b c -> (forall y, Q y -> y < length (heap a) -> P y) -> frame P a c.
Proof.
  intros P Q a b c ([A1 A2] & A3 & A4) ([B1 B2] & B3 & B4) H. split; [split; congruence|]. split; [lia|]. intros y Hy N. rewrite B4; [auto|lia|]. intro. apply N. auto.
Qed.
Lemma addf_at : forall s r st, nth_error (heap (addf s r st)) s =
  option_map (fun q => match q with SRec b fs => SRec b (fs ++ [r]) | SProc ps re => SProc (ps ++ [r]) re | q => q end) (nth_error (heap st) s).
Proof.
  intros. unfold addf. destruct (nth_error (heap st) s) as [q|] eqn:E; [|rewrite E; reflexivity]. pose proof (nth_lt _ _ _ E).
  destruct q; cbn [with_heap heap option_map]; try exact E; apply updn_same; auto.
Qed.
(** One field or parameter has been read. *)
Lemma den_item : forall f b s st, sub_den f -> s < length (heap st) -> errs (fst (sub f LVar b st)) = errs st ->
  let st' := addf s (snd (sub f LVar b st)) (fst (sub f LVar b st)) in
  frame (eq s) st st' /\ fwd st' = fwd st /\ denotes (heap st') (length (heap st)) (lookup st) f (snd (sub f LVar b st)) /\
  nth_error (heap st') s = option_map (fun q => match q with SRec b1 fs => SRec b1 (fs ++ [snd (sub f LVar b st)]) | SProc ps re => SProc (ps ++ [snd (sub f LVar b st)]) re | q => q end) (nth_error (heap st) s).
Proof.
  intros f b s st D Hs E st'. destruct (D LVar b st I E) as (FR & _ & DN & FW). unfold st'. set (st1 := fst (sub f LVar b st)) in *. set (r := snd (sub f LVar b st)) in *.
  destruct (addf_heap s r st1) as (A1 & A2 & A3 & A4 & A5). pose proof FR as (_ & F3 & F4).
  split; [|split; [congruence|split]].
  - apply (frame_sub (eq s) (eq s) st st1); [eapply frame_imp; [|exact FR]; intros y Q; discriminate Q| |auto]. split; [split; auto|]. split; [lia|]. intros y Hy N. apply A2. auto.
  - eapply denotes_frame; [|exact DN]. intros y Hy. apply A2. lia.
  - rewrite addf_at. rewrite F4; auto. intro Q. discriminate Q.
Qed.
Lemma den_fields : forall b s fs, Forall sub_den fs -> forall st bo rs, nth_error (heap st) s = Some (SRec bo rs) -> errs (fields s b fs st) = errs st ->
  frame (eq s) st (fields s b fs st) /\ fwd (fields s b fs st) = fwd st /\
  exists rs', nth_error (heap (fields s b fs st)) s = Some (SRec bo (rs ++ rs')) /\ Forall2 (denotes (heap (fields s b fs st)) (length (heap st)) (lookup st)) fs rs'.
Proof.
  intros b s fs H. induction H as [|f fs Hf _ IH]; intros st bo rs N E.
  - cbn [fields]. split; [apply frame_refl|]. split; [auto|]. exists []. rewrite app_nil_r. auto.
  - assert (fields s b (f :: fs) st = let '(st1, r) := sub f LVar b st in let '(st2, r) := if is_dyn st1 r then (err 88 st1, 0) else (st1, r) in fields s b fs (addf s r st2)) as EQ.
    { cbn [fields]. unfold sub. destruct (hdr f LVar b st). reflexivity. }
    rewrite EQ in *. clear EQ. pose proof (more_sub f LVar b st (more_body f)) as M1.
    assert (fst (sub f LVar b st) = let '(st, r) := hdr f LVar b st in chkptr r (body f r b st)) as EF by (unfold sub; destruct (hdr f LVar b st); reflexivity).
    rewrite <- EF in M1. clear EF. pose proof (den_item f b s st Hf (nth_lt _ _ _ N)) as DI. cbv zeta in DI.
    destruct (sub f LVar b st) as [st1 r]. cbn [fst snd] in *. destruct (is_dyn st1 r).
    + exfalso. pose proof (more_fields s b fs (addf s 0 (err 88 st1))) as M2. destruct M1 as [e1 M1]. destruct M2 as [e2 M2]. rewrite errs_addf in M2. cbn [errs err] in M2. rewrite M2, M1 in E.
      apply (f_equal (@length Z)) in E. rewrite app_length in E. cbn in E. rewrite app_length in E. lia.
    + pose proof (more_fields s b fs (addf s r st1)) as M2. assert (more st (addf s r st1)) as M3 by (destruct M1 as [e Q]; exists e; rewrite errs_addf; exact Q).
      destruct (more_squeeze _ _ _ M3 M2 E) as [E1 E2]. rewrite errs_addf in E1. destruct (DI E1) as (FR & FW & DN & AT). rewrite N in AT. cbn [option_map] in AT.
      destruct (IH _ _ _ AT E2) as (FR2 & FW2 & rs' & N' & D'). split; [eapply frame_trans; eauto|]. split; [congruence|].
      exists (r :: rs'). rewrite <- app_assoc in N'. split; [exact N'|]. pose proof FR as (SE & L & _). pose proof FR2 as (_ & _ & F4). constructor.
      * eapply denotes_frame; [|exact DN]. intros y Hy. apply F4; [lia|]. intros <-. apply nth_lt in N. lia.
      * eapply Forall2_imp; [|exact D']. apply Forall_forall. intros a _ b' Hb. eapply denotes_weak; [exact L| |exact Hb]. intros n o. rewrite (same_lookup st (addf s r st1)); auto.
Qed.
Lemma den_params : forall s fs, Forall sub_den fs -> forall st re rs, nth_error (heap st) s = Some (SProc rs re) -> errs (params s fs st) = errs st ->
  frame (eq s) st (params s fs st) /\ fwd (params s fs st) = fwd st /\
  exists rs', nth_error (heap (params s fs st)) s = Some (SProc (rs ++ rs') re) /\ Forall2 (denotes (heap (params s fs st)) (length (heap st)) (lookup st)) fs rs'.
Proof.
  intros s fs H. induction H as [|f fs Hf _ IH]; intros st bo rs N E.
  - cbn [params]. split; [apply frame_refl|]. split; [auto|]. exists []. rewrite app_nil_r. auto.
  - assert (params s (f :: fs) st = let '(st1, r) := sub f LVar None st in params s fs (addf s r st1)) as EQ.
    { cbn [params]. unfold sub. destruct (hdr f LVar None st). reflexivity. }
    rewrite EQ in *. clear EQ. pose proof (more_sub f LVar None st (more_body f)) as M1.
    assert (fst (sub f LVar None st) = let '(st, r) := hdr f LVar None st in chkptr r (body f r None st)) as EF by (unfold sub; destruct (hdr f LVar None st); reflexivity).
    rewrite <- EF in M1. clear EF. pose proof (den_item f None s st Hf (nth_lt _ _ _ N)) as DI. cbv zeta in DI.
    destruct (sub f LVar None st) as [st1 r]. cbn [fst snd] in *.
    pose proof (more_params s fs (addf s r st1)) as M2. assert (more st (addf s r st1)) as M3 by (destruct M1 as [e Q]; exists e; rewrite errs_addf; exact Q).
    destruct (more_squeeze _ _ _ M3 M2 E) as [E1 E2]. rewrite errs_addf in E1. destruct (DI E1) as (FR & FW & DN & AT). rewrite N in AT. cbn [option_map] in AT.
    destruct (IH _ _ _ AT E2) as (FR2 & FW2 & rs' & N' & D'). split; [eapply frame_trans; eauto|]. split; [congruence|].
    exists (r :: rs'). rewrite <- app_assoc in N'. split; [exact N'|]. pose proof FR as (SE & L & _). pose proof FR2 as (_ & _ & F4). constructor.
    + eapply denotes_frame; [|exact DN]. intros y Hy. apply F4; [lia|]. intros <-. apply nth_lt in N. lia.
    + eapply Forall2_imp; [|exact D']. apply Forall_forall. intros a _ b' Hb. eapply denotes_weak; [exact L| |exact Hb]. intros n o. rewrite (same_lookup st (addf s r st1)); auto.
Qed.
Lemma den_rec_base : forall bo s b st, nth_error (heap st) s = Some (SRec None []) -> errs (rec_base bo s b st) = errs st ->
  frame (eq s) st (rec_base bo s b st) /\ fwd (rec_base bo s b st) = fwd st /\
  exists x, nth_error (heap (rec_base bo s b st)) s = Some (SRec x []) /\ match bo, x with None, None => True | Some n, Some x => lookup st n = Some (OTyp x) | _, _ => False end.
Proof.
  intros [n|] s b st N E; cbn [rec_base] in *; [|split; [apply frame_refl|]; split; auto; exists None; auto].
  destruct (lookup st n) as [[x|]|] eqn:Lk.
  - destruct (is_rec st x); [|exfalso; apply (f_equal (@length Z)) in E; cbn in E; lia]. destruct (is_banned b st x); [exfalso; apply (f_equal (@length Z)) in E; cbn in E; lia|].
    rewrite N in E |- *. pose proof (nth_lt _ _ _ N). unfold frame, same_env, with_heap. cbn [heap fwd loc out]. rewrite updn_length. split; [|split; [auto|]].
    + split; [split; reflexivity|]. split; [lia|]. intros y Hy NE. apply updn_other. auto.
    + exists (Some x). split; [apply updn_same; auto|reflexivity].
  - exfalso; apply (f_equal (@length Z)) in E; cbn in E; lia.
  - exfalso; apply (f_equal (@length Z)) in E; cbn in E; lia.
Qed.
Lemma den_result : forall res s st ps, nth_error (heap st) s = Some (SProc ps 1) -> errs (proc_result res s st) = errs st ->
  frame (eq s) st (proc_result res s st) /\ fwd (proc_result res s st) = fwd st /\
  exists x, nth_error (heap (proc_result res s st)) s = Some (SProc ps x) /\ match res with None => x = 1 | Some n => lookup st n = Some (OTyp x) end.
Proof.
  intros [n|] s st ps N E; cbn [proc_result] in *; [|split; [apply frame_refl|]; split; auto; exists 1; auto].
  destruct (lookup st n) as [[x|]|] eqn:Lk.
  - destruct (is_comp st x); [exfalso; apply (f_equal (@length Z)) in E; cbn in E; lia|].
    rewrite N in E |- *. pose proof (nth_lt _ _ _ N). unfold frame, same_env, with_heap. cbn [heap fwd loc out]. rewrite updn_length. split; [|split; [auto|]].
    + split; [split; reflexivity|]. split; [lia|]. intros y Hy NE. apply updn_other. auto.
    + exists x. split; [apply updn_same; auto|reflexivity].
  - exfalso; apply (f_equal (@length Z)) in E; cbn in E; lia.
  - exfalso; apply (f_equal (@length Z)) in E; cbn in E; lia.
Qed.
Lemma den_bodies : forall t, body_den t.
Proof.
  induction t as [n|t IH|t IH|bo fs IH|t IH|ps r IH] using texp_ind2; intros b s st EN N E; [discriminate EN| | | | |].
  - pose proof (den_sub t IH (LBase s) b st (nth_lt _ _ _ N)) as D. cbv zeta in D.
    assert (body (TArr t) s b st = let '(st1, r) := sub t (LBase s) b st in if is_dyn st1 r then err 88 (setbase s 0 st1) else st1) as EQ by (unfold sub; cbn [body]; destruct (hdr t (LBase s) b st); reflexivity).
    pose proof (more_sub t (LBase s) b st (more_body t)) as M1.
    assert (fst (sub t (LBase s) b st) = let '(st, r) := hdr t (LBase s) b st in chkptr r (body t r b st)) as EF by (unfold sub; destruct (hdr t (LBase s) b st); reflexivity).
    rewrite <- EF in M1. clear EF. rewrite EQ in *. clear EQ. destruct (sub t (LBase s) b st) as [st1 r]. cbn [fst snd] in *.
    destruct (is_dyn st1 r).
    { exfalso. destruct M1 as [e M1]. cbn [err errs] in E. rewrite errs_setbase, M1 in E. apply (f_equal (@length Z)) in E. cbn in E. rewrite app_length in E. lia. }
    destruct (D E) as (FR & OW & DN & FW). split; [eapply frame_imp; [|exact FR]; intros y Q; unfold owner in Q; congruence|]. left. split; [|exact FW].
    cbn [denotes]. split; [lia|]. exists r. rewrite (OW s eq_refl), N. split; [reflexivity|]. eapply denotes_weak; [|intros ? ? Q; exact Q|exact DN]. apply nth_lt in N. lia.
  - pose proof (den_sub t IH (LBase s) b st (nth_lt _ _ _ N)) as D. cbv zeta in D.
    assert (body (TDyn t) s b st = fst (sub t (LBase s) b st)) as EQ by (unfold sub; cbn [body]; destruct (hdr t (LBase s) b st); reflexivity).
    rewrite EQ in *. clear EQ. destruct (sub t (LBase s) b st) as [st1 r]. cbn [fst snd] in *.
    destruct (D E) as (FR & OW & DN & FW). split; [eapply frame_imp; [|exact FR]; intros y Q; unfold owner in Q; congruence|]. left. split; [|exact FW].
    cbn [denotes]. split; [lia|]. exists r. rewrite (OW s eq_refl), N. split; [reflexivity|]. eapply denotes_weak; [|intros ? ? Q; exact Q|exact DN]. apply nth_lt in N. lia.
  - rewrite body_rec in *. cbn [init] in N. pose proof (more_rec_base bo s b st) as M1. pose proof (more_fields s b fs (rec_base bo s b st)) as M2.
    destruct (more_squeeze _ _ _ M1 M2 E) as [E1 E2]. destruct (den_rec_base bo s b st N E1) as (FR & FW & x & NX & HX).
    assert (Forall sub_den fs) as SD by (eapply Forall_impl; [|exact IH]; apply den_sub).
    destruct (den_fields b s fs SD _ _ _ NX E2) as (FR2 & FW2 & rs & NR & DR). split; [eapply frame_trans; eauto|]. left. split; [|congruence].
    rewrite denotes_rec. split; [lia|]. exists x, rs. split; [exact NR|]. split; [exact HX|]. pose proof FR as (SE & L & _).
    eapply Forall2_imp; [|exact DR]. apply Forall_forall. intros a _ b' Hb. eapply denotes_weak; [| |exact Hb]; [apply nth_lt in NX; lia|]. intros n o. rewrite (same_lookup st (rec_base bo s b st)); auto.
  - destruct (is_name t) eqn:ET.
    + destruct t as [n| | | | |]; try discriminate ET. cbn [body] in *. unfold ptr_name in *. cbn [init] in N. destruct (lookup st n) as [[x|]|] eqn:Lk.
      * destruct (is_comp st x); [|exfalso; apply (f_equal (@length Z)) in E; cbn in E; lia]. destruct (setbase_heap s x st) as (A1 & A2 & A3). destruct (setbase_rest s x st) as (B1 & B2 & B3 & B4).
        split; [split; [split; auto|]; split; [lia|]; intros y Hy NE; apply A2; auto|]. left. split; [|exact B3]. cbn [denotes]. split; [lia|]. exists x, false. rewrite A3, N. split; [reflexivity|exact Lk].
      * exfalso; apply (f_equal (@length Z)) in E; cbn in E; lia.
      * destruct (length (fwd st) <? 64); [|exfalso; apply (f_equal (@length Z)) in E; cbn in E; lia]. split; [repeat split; auto|]. right. exists n. auto.
    + assert (body (TPtr t) s b st = let '(st1, r) := sub t (LBase s) None st in if is_comp st1 r then st1 else err 57 (setbase s 0 st1)) as EQ.
      { unfold sub. destruct t; try discriminate ET; cbn [body]; match goal with |- context [hdr ?t ?l ?b ?s] => destruct (hdr t l b s) end; reflexivity. }
      pose proof (den_sub t IH (LBase s) None st (nth_lt _ _ _ N)) as D. cbv zeta in D. pose proof (more_sub t (LBase s) None st (more_body t)) as M1.
      assert (fst (sub t (LBase s) None st) = let '(st, r) := hdr t (LBase s) None st in chkptr r (body t r None st)) as EF by (unfold sub; destruct (hdr t (LBase s) None st); reflexivity).
      rewrite <- EF in M1. clear EF. rewrite EQ in *. clear EQ. destruct (sub t (LBase s) None st) as [st1 r]. cbn [fst snd] in *.
      destruct (is_comp st1 r).
      2:{ exfalso. destruct M1 as [e M1]. cbn [err errs] in E. rewrite errs_setbase, M1 in E. apply (f_equal (@length Z)) in E. cbn in E. rewrite app_length in E. lia. }
      destruct (D E) as (FR & OW & DN & FW). split; [eapply frame_imp; [|exact FR]; intros y Q; unfold owner in Q; congruence|]. left. split; [|exact FW].
      cbn [denotes]. split; [lia|]. exists r, false. rewrite (OW s eq_refl), N. split; [reflexivity|]. eapply denotes_weak; [|intros ? ? Q; exact Q|exact DN]. apply nth_lt in N. lia.
  - rewrite body_proc in *. cbn [init] in N. pose proof (more_params s ps st) as M1. pose proof (more_proc_result r s (params s ps st)) as M2.
    destruct (more_squeeze _ _ _ M1 M2 E) as [E1 E2].
    assert (Forall sub_den ps) as SD by (eapply Forall_impl; [|exact IH]; apply den_sub).
    destruct (den_params s ps SD _ _ _ N E1) as (FR & FW & rs & NR & DR). cbn [app] in NR. destruct (den_result r s _ _ NR E2) as (FR2 & FW2 & x & NX & HX).
    split; [eapply frame_trans; eauto|]. left. split; [|congruence]. pose proof FR as (SE & L & _). pose proof FR2 as (_ & _ & F4).
    rewrite denotes_proc. split; [lia|]. exists rs, x. split; [exact NX|]. split; [destruct r; auto; rewrite (same_lookup st (params s ps st)) in HX; auto|].
    eapply Forall2_imp; [|exact DR]. apply Forall_forall. intros a _ b' Hb. eapply denotes_weak; [|intros ? ? Q; exact Q|].
    2:{ eapply denotes_frame; [|exact Hb]. intros y Hy. apply F4; [lia|]. intros <-. apply nth_lt in N. lia. }
    apply nth_lt in N. lia.
Qed.

(** * One declaration *)
Definition grows (st st' : state) : Prop :=
  keeps (heap st) (heap st') /\ (forall m ob, assoc (loc st) m = Some ob -> assoc (loc st') m = Some ob) /\ out st' = out st /\
  forall x m d, In (x, m, d) (fwd st) -> exists d', In (x, m, d') (fwd st').
Lemma grows_refl : forall st, grows st st.
Proof. intro st. split; [apply keeps_refl|]. split; [auto|]. split; [auto|]. eauto. Qed.
Lemma grows_trans : forall a b c, grows a b -> grows b c -> grows a c.
Proof.
  intros a b c (A1 & A2 & A3 & A4) (B1 & B2 & B3 & B4). split; [eapply keeps_trans; eauto|]. split; [auto|]. split; [congruence|].
  intros x m d H. destruct (A4 _ _ _ H) as [d' H']. eauto.
Qed.
Lemma grows_insert : forall n o st, errs (insert n o st) = errs st -> grows st (insert n o st) /\ heap (insert n o st) = heap st /\ assoc (loc st) n = None.
Proof.
  intros n o st E. unfold insert in *. destruct (assoc (loc st) n) eqn:A; [exfalso; apply (f_equal (@length Z)) in E; cbn in E; lia|]. split; [|auto].
  split; [apply keeps_refl|]. split; [|split; [auto|eauto]]. intros m ob H. cbn [loc assoc]. destruct (n =? m)%Z eqn:Q; auto. apply Z.eqb_eq in Q. congruence.
Qed.
Lemma grows_inserts : forall ns st, errs (fold_left (fun st n => insert n OOther st) ns st) = errs st -> grows st (fold_left (fun st n => insert n OOther st) ns st).
Proof.
  induction ns as [|n ns IH]; intros st E; cbn [fold_left] in *; [apply grows_refl|].
  destruct (more_squeeze _ _ _ (more_insert n OOther st) (more_inserts ns _) E) as [E1 E2]. eapply grows_trans; [apply grows_insert; exact E1|apply IH; exact E2].
Qed.
Lemma frame_grows : forall P st st', frame P st st' -> fwd st' = fwd st -> (forall y, P y -> length (heap st) <= y) -> grows st st'.
Proof.
  intros P st st' ([A1 A2] & A3 & A4) F H. split; [|split; [rewrite A1; auto|split; [auto|rewrite F; eauto]]].
  intros y q E. left. pose proof (nth_lt _ _ _ E). rewrite A4; auto. intro Q. specialize (H y Q). lia.
Qed.
Lemma finish_keeps : forall n s st, NoDup (map place_of (fwd st)) -> (forall x, In (x, n, false) (fwd st) -> nth_error (heap st) x = Some (SPtr 0 true)) ->
  keeps (heap st) (heap (finish n s st)) /\ forall x m d, In (x, m, d) (fwd st) -> exists d', In (x, m, d') (fwd (finish n s st)).
Proof.
  intros n s st ND H. unfold finish.
  assert (keeps (heap st) (heap (set_named s st)) /\ fwd (set_named s st) = fwd st) as [K1 F1].
  { unfold set_named. destruct (nth_error (heap st) s) as [[]|] eqn:E; try (split; [apply keeps_refl|reflexivity]). split; [|reflexivity]. cbn [with_heap heap].
    intros y q Ey. destruct (Nat.eq_dec s y) as [<-|NE]; [|left; rewrite updn_other; auto]. right. exists b, named, true, b. split; [congruence|]. split; [|auto]. apply updn_same. eapply nth_lt; eauto. }
  assert (forall x, In (x, n, false) (fwd (set_named s st)) -> nth_error (heap (set_named s st)) x = Some (SPtr 0 true)) as H1.
  { rewrite F1. intros x Hx. specialize (H x Hx). unfold set_named. destruct (nth_error (heap st) s) as [[]|] eqn:E; auto. cbn [with_heap heap].
    destruct (Nat.eq_dec s x) as [->|NE]; [|rewrite updn_other; auto]. rewrite updn_same by (eapply nth_lt; eauto). congruence. }
  destruct (is_comp (set_named s st) s).
  - rewrite F1 in *. destruct (resolve_ok n s (fwd st) (heap (set_named s st)) ND H1) as (R1 & R2 & R3 & R4). destruct (resolve (fwd st) n s (heap (set_named s st))) as [f h]. cbn [fst snd heap fwd] in *. split.
    + eapply keeps_trans; [exact K1|]. intros y q Ey.
      destruct (in_dec (fun a b : nat * name * bool => ltac:(repeat decide equality)) (y, n, false) (fwd st)) as [I|I]; [|left; rewrite R4; auto].
      right. rewrite H1 in Ey by auto. injection Ey as <-. exists 0, true, true, s. rewrite R3 by auto. split; [auto|]. split; [auto|congruence].
    + intros x m d Hx. rewrite R1. destruct (negb d && (m =? n)%Z) eqn:C; [exists true|exists d]; apply in_map_iff; exists (x, m, d); cbn [cleared]; rewrite C; auto.
  - split; [exact K1|]. rewrite F1. eauto.
Qed.
Lemma J_env : forall st l o w n, J st l o w -> lookup st n <> Some (OTyp 0).
Proof.
  intros st l o w n HJ Q. destruct HJ as [a0 a1 a2 a3 a3o a4 a5 a6]. unfold lookup in Q. specialize (a3 n). specialize (a3o n).
  destruct (assoc (loc st) n) as [[s|]|].
  - destruct (assoc l n) as [[k|]|]; try tauto. injection Q as ->. destruct a3 as [a3 _]. unfold kind_at in a3. rewrite a0 in a3. discriminate.
  - discriminate.
  - destruct (assoc (out st) n) as [[s|]|]; try discriminate. destruct (assoc o n) as [[k|]|]; try tauto. injection Q as ->. destruct a3o as [a3o _]. unfold kind_at in a3o. rewrite a0 in a3o. discriminate.
Qed.
Definition env_with (st : state) (n : name) (s : nat) (m : name) : option obj := if (n =? m)%Z then Some (OTyp s) else lookup st m.
Lemma type_den : forall n t st l o w, J st l o w -> errs (declare (DType n t) st) = errs st ->
  grows st (declare (DType n t) st) /\ exists s, assoc (loc (declare (DType n t) st)) n = Some (OTyp s) /\ s <> 0 /\
  (denotes (heap (declare (DType n t) st)) (length (heap st)) (env_with st n s) t s \/
   exists m, t = TPtr (TName m) /\ env_with st n s m = None /\ length (heap st) <= s /\ exists d, In (s, m, d) (fwd (declare (DType n t) st))).
Proof.
  intros n t st l o w HJ E. pose proof HJ as [a0 a1 a2 a3 a3o a4 a5 a6]. rewrite declare_type_unfold in *.
  set (st1 := insert n (OTyp 0) st) in *. pose proof (more_insert n (OTyp 0) st) as M1. fold st1 in M1. pose proof (more_hdr t (LObj n) (Some n) st1) as M2.
  assert (st1 = mkst (heap st) ((n, OTyp 0) :: loc st) (out st) (fwd st) (errs st1)) as EI by (unfold st1, insert; destruct (assoc (loc st) n); reflexivity).
  assert (forall v, store (LObj n) v st1 = mkst (heap st) ((n, OTyp v) :: loc st) (out st) (fwd st) (errs st1)) as ST.
  { intro v. clear - EI. clearbody st1. destruct st1 as [h1 l1 o1 f1 e1]. cbn [errs] in *. injection EI as -> -> -> ->. cbn [store loc heap out fwd errs upda]. rewrite Z.eqb_refl. reflexivity. }
  assert (store (LObj n) 0 st1 = st1) as S0 by (rewrite ST; auto).
  destruct (hdr t (LObj n) (Some n) st1) as [st2 s] eqn:EH. cbn [fst] in M2. pose proof (more_body t s (Some n) st2) as M3. destruct (finish_fields n s (body t s (Some n) st2)) as (FL & FO & FE & _).
  rewrite FE in E. destruct (more_squeeze _ _ _ (more_trans _ _ _ M1 M2) M3 E) as [E2 E3]. destruct (more_squeeze _ _ _ M1 M2 E2) as [E1 E2'].
  destruct (grows_insert n (OTyp 0) st E1) as (_ & _ & A). fold st1 in E1. rewrite E1 in ST, EI.
  clearbody st1. subst st1. set (st1 := mkst (heap st) ((n, OTyp 0) :: loc st) (out st) (fwd st) (errs st)) in *.
  set (st3 := body t s (Some n) st2) in *.
  assert (st2 = mkst (if is_name t then heap st else heap st ++ [init t]) ((n, OTyp s) :: loc st) (out st) (fwd st) (errs st) /\
          (if is_name t then exists m, t = TName m /\ m <> n /\ lookup st m = Some (OTyp s) else s = length (heap st))) as [Q2 QS].
  { unfold hdr in EH. rewrite S0 in EH. destruct t as [m| | | | |]; cbn [is_name].
    - destruct (lookup st1 m) as [[x|]|] eqn:Lk.
      + destruct (is_banned (Some n) st1 x) eqn:B; injection EH as <- <-; [exfalso; cbn in E2'; apply (f_equal (@length Z)) in E2'; cbn in E2'; lia|].
        split; [apply ST|]. exists m. split; [auto|]. assert (m <> n) as NE. { intros ->. unfold is_banned in B. rewrite Lk, Nat.eqb_refl in B. discriminate. }
        split; [auto|]. unfold lookup, st1 in Lk. unfold lookup. cbn [loc out assoc] in Lk. apply Z.eqb_neq in NE. rewrite Z.eqb_sym, NE in Lk. exact Lk.
      + injection EH as <- <-. exfalso. cbn in E2'. apply (f_equal (@length Z)) in E2'. cbn in E2'. lia.
      + injection EH as <- <-. exfalso. cbn in E2'. apply (f_equal (@length Z)) in E2'. cbn in E2'. lia.
    - unfold st1 in EH. cbn [heap store with_heap loc out fwd errs upda] in EH. rewrite Z.eqb_refl in EH. injection EH as <- <-. auto.
    - unfold st1 in EH. cbn [heap store with_heap loc out fwd errs upda] in EH. rewrite Z.eqb_refl in EH. injection EH as <- <-. auto.
    - unfold st1 in EH. cbn [heap store with_heap loc out fwd errs upda] in EH. rewrite Z.eqb_refl in EH. injection EH as <- <-. auto.
    - unfold st1 in EH. cbn [heap store with_heap loc out fwd errs upda] in EH. rewrite Z.eqb_refl in EH. injection EH as <- <-. auto.
    - unfold st1 in EH. cbn [heap store with_heap loc out fwd errs upda] in EH. rewrite Z.eqb_refl in EH. injection EH as <- <-. auto. }
  assert (0 < length (heap st)) as L0 by (eapply nth_lt; eauto).
  assert (forall m, lookup st2 m = env_with st n s m) as LE. { intro m. rewrite Q2. unfold lookup, env_with. cbn [loc out assoc]. destruct (n =? m)%Z; reflexivity. }
  assert (forall x, In (x, n, false) (fwd st) -> nth_error (heap st) x = Some (SPtr 0 true)) as WT by (intros x Hx; apply (a4 x n false Hx)).
  assert (forall x m d, In (x, m, d) (fwd st) -> x < length (heap st)) as LF.
  { intros x m d Hx. specialize (a4 x m d Hx). destruct d; [destruct a4 as (r & Q & _)|]; eapply nth_lt; eauto. }
  assert (loc (finish n s st3) = (n, OTyp s) :: loc st /\ out (finish n s st3) = out st /\ (forall y, y < length (heap st) -> nth_error (heap st3) y = nth_error (heap st) y) /\
          ((if is_name t then True else denotes (heap st3) (length (heap st)) (env_with st n s) t s) /\ fwd st3 = fwd st \/
           exists m, t = TPtr (TName m) /\ env_with st n s m = None /\ fwd st3 = fwd st ++ [(s, m, false)])) as (P1 & P2 & P3 & P4).
  { rewrite FL, FO. destruct (is_name t) eqn:EN.
    - destruct QS as (m & -> & NE & Lk). unfold st3. cbn [body]. rewrite Q2. cbn [loc out heap fwd]. split; [reflexivity|]. split; [reflexivity|]. split; [reflexivity|]. left. split; [exact I|reflexivity].
    - assert (nth_error (heap st2) s = Some (init t)) as N2 by (rewrite Q2, QS; apply nth_snoc_new).
      destruct (den_bodies t (Some n) s st2 EN N2 E3) as (([F1 F2] & F3 & F4) & D). fold st3 in F1, F2, F3, F4, D. rewrite F1, F2. rewrite Q2 in F4 |- *. cbn [loc out heap] in F4 |- *. split; [auto|]. split; [auto|].
      split; [intros y Hy; rewrite F4; [apply nth_snoc_old; auto|rewrite app_length; lia|subst s; lia]|].
      destruct D as [[D FW]|(m & Et & Lm & _ & FW)].
      + left. split; [|rewrite FW, Q2; reflexivity]. rewrite <- QS. eapply denotes_weak; [| |exact D]; [lia|]. intros m ob. rewrite LE. auto.
      + right. exists m. rewrite LE in Lm. split; [auto|]. split; [auto|]. rewrite FW, Q2. reflexivity. }
  assert (s <> 0) as NZ. { destruct (is_name t); [|lia]. destruct QS as (m & _ & _ & Lk). intros ->. exact (J_env _ _ _ _ m HJ Lk). }
  assert (NoDup (map place_of (fwd st3)) /\ (forall x, In (x, n, false) (fwd st3) -> In (x, n, false) (fwd st)) /\ (forall x m d, In (x, m, d) (fwd st) -> In (x, m, d) (fwd st3))) as (ND & IN & IN').
  { destruct P4 as [[_ ->]|(m & Et & Em & ->)]; [auto|]. assert (s = length (heap st)) as -> by (subst t; exact QS). split; [|split].
    - rewrite map_app. cbn [map place_of fst]. apply (NoDup_Add (a := length (heap st)) (l := map place_of (fwd st))).
      + rewrite <- (app_nil_r (map place_of (fwd st))) at 1. apply Add_app.
      + split; auto. intro Q. apply in_map_iff in Q. destruct Q as ([[y mm] d] & Q1 & Q2'). cbn in Q1. subst y. specialize (LF _ _ _ Q2'). lia.
    - intros x Hx. apply in_app_iff in Hx. destruct Hx as [Hx|[Q|[]]]; auto. injection Q as _ ->. unfold env_with in Em. rewrite Z.eqb_refl in Em. discriminate.
    - intros x mm d Hx. apply in_app_iff. auto. }
  destruct (finish_keeps n s st3 ND) as [KF IF]. { intros x Hx. specialize (IN x Hx). rewrite P3; [auto|]. eapply LF; eauto. }
  split.
  - split; [|split; [|split; [exact P2|]]].
    + intros y q Ey. apply KF. rewrite P3; auto. eapply nth_lt; eauto.
    + intros m ob Hm. rewrite P1. cbn [assoc]. destruct (n =? m)%Z eqn:Q; auto. apply Z.eqb_eq in Q. congruence.
    + intros x m d Hx. apply (IF x m d). auto.
  - exists s. split; [rewrite P1; cbn [assoc]; rewrite Z.eqb_refl; reflexivity|]. split; [exact NZ|]. destruct P4 as [[D _]|(m & Et & Em & FW)].
    + left. destruct (is_name t) eqn:EN.
      * destruct QS as (m & -> & NE & Lk). cbn [denotes]. unfold env_with. apply Z.eqb_neq in NE. rewrite Z.eqb_sym, NE. exact Lk.
      * eapply denotes_keeps; [| |exact KF|exact D].
        -- rewrite P3; auto.
        -- intros m. unfold env_with. destruct (n =? m)%Z; [congruence|]. apply (J_env _ _ _ _ m HJ).
    + right. exists m. split; [auto|]. split; [auto|]. split; [subst t; cbn [is_name] in QS; lia|]. apply (IF s m false). rewrite FW. apply in_app_iff. right. left. reflexivity.
Qed.
Lemma step_grows : forall d st l o w, J st l o w -> errs (declare d st) = errs st -> grows st (declare d st).
Proof.
  intros [n|n t|ns t] st l o w HJ E.
  - apply (grows_insert n OOther st E).
  - eapply type_den; eauto.
  - pose proof (more_inserts ns st) as M1. cbn [declare] in *. set (st1 := fold_left (fun st n => insert n OOther st) ns st) in *.
    assert (Type_ t LVar None st1 = sub t LVar None st1) as ET. { unfold Type_, TypeDecl, sub. destruct (hdr t LVar None st1). reflexivity. }
    rewrite ET in *. clear ET. pose proof (more_sub t LVar None st1 (more_body t)) as M2.
    assert (fst (sub t LVar None st1) = let '(st, r) := hdr t LVar None st1 in chkptr r (body t r None st)) as EF by (unfold sub; destruct (hdr t LVar None st1); reflexivity).
    rewrite <- EF in M2. clear EF. pose proof (den_sub t (den_bodies t) LVar None st1 I) as DS. cbv zeta in DS. destruct (sub t LVar None st1) as [st2 s]. cbn [fst snd] in *.
    destruct (is_dyn st2 s); [exfalso; revert E; apply err_ne; eapply more_trans; eauto|].
    destruct (more_squeeze _ _ _ M1 M2 E) as [E1 E2]. eapply grows_trans; [apply grows_inserts; exact E1|]. destruct (DS E2) as (FR & _ & _ & FW).
    eapply frame_grows; [exact FR|exact FW|]. intros y Q. discriminate Q.
Qed.
Lemma fold_grows : forall ds st l o w, J st l o w -> errs (fold_left (fun st d => declare d st) ds st) = errs st ->
  grows st (fold_left (fun st d => declare d st) ds st) /\ exists l' w', J (fold_left (fun st d => declare d st) ds st) l' o w'.
Proof.
  induction ds as [|d ds IH]; intros st l o w HJ E; cbn [fold_left] in *; [split; [apply grows_refl|eauto]|].
  destruct (more_squeeze _ _ _ (more_declare d st) (more_fold ds _) E) as [E1 E2]. destruct (proj1 (step_ok d st l o w HJ) E1) as (l' & w' & c' & _ & HJ' & _).
  destruct (IH _ _ _ _ HJ' E2) as [G HJ2]. split; [|exact HJ2]. eapply grows_trans; [eapply step_grows; eauto|exact G].
Qed.
(** The names as a type declared after the declarations [before] sees them: its own name, the names declared so far, and for a pointer also
    the names declared later. *)
Lemma block_meaning : forall before n t after st l o w, J st l o w -> let final := block (before ++ DType n t :: after) st in errs final = errs st ->
  let mid := fold_left (fun st d => declare d st) before st in
  exists s, assoc (loc final) n = Some (OTyp s) /\
    denotes (heap final) (length (heap mid)) (fun m => if (n =? m)%Z then Some (OTyp s) else match lookup mid m with Some ob => Some ob | None => assoc (loc final) m end) t s.
Proof.
  intros before n t after st l o w HJ final E mid. destruct (proj1 (block_ok _ _ _ _ _ HJ) E) as [_ [lf HJf]]. fold final in HJf.
  unfold final, block in E. cbn [errs] in E. set (F := fold_left (fun st d => declare d st) (before ++ DType n t :: after) st) in *.
  assert (errs F = errs st) as EF.
  { destruct (more_fold (before ++ DType n t :: after) st) as [e Q]. fold F in Q. rewrite Q in *. destruct e; [reflexivity|]. exfalso. apply (f_equal (@length Z)) in E. rewrite !app_length in E. cbn in E. lia. }
  assert (F = fold_left (fun st d => declare d st) after (declare (DType n t) mid)) as FF by (unfold F; rewrite fold_left_app; reflexivity).
  pose proof (more_fold before st) as M1. fold mid in M1. pose proof (more_declare (DType n t) mid) as M2. pose proof (more_fold after (declare (DType n t) mid)) as M3. rewrite <- FF in M3.
  destruct (more_squeeze _ _ _ M1 (more_trans _ _ _ M2 M3) EF) as [E1 E2]. destruct (more_squeeze _ _ _ M2 M3 E2) as [E3 E4].
  destruct (fold_grows before st l o w HJ E1) as [_ (l1 & w1 & HJ1)]. fold mid in HJ1.
  destruct (type_den n t mid l1 o w1 HJ1 E3) as (_ & s & LS & NZ & D). destruct (proj1 (step_ok _ _ _ _ _ HJ1) E3) as (l2 & w2 & c2 & _ & HJ2 & _).
  rewrite FF in E4. destruct (fold_grows after _ l2 o w2 HJ2 E4) as [(G1 & G2 & G3 & G4) _]. rewrite <- FF in G1, G2, G3, G4.
  assert (heap final = heap F /\ loc final = loc F /\ fwd final = fwd F) as (H1 & H2 & H3) by (split; [|split]; reflexivity). rewrite H2.
  exists s. split; [apply G2; exact LS|]. destruct D as [D|(m & -> & Em & Ls & d & Hd)].
  - rewrite H1. eapply denotes_keeps with (h := heap (declare (DType n t) mid)); [apply (j0 _ _ _ _ HJ2)| |exact G1|].
    + intro m. destruct (n =? m)%Z; [congruence|]. destruct (lookup mid m) eqn:Q; [rewrite <- Q; apply (J_env _ _ _ _ m HJ1)|].
      intro Q'. apply (J_env _ _ _ _ m HJf). unfold lookup. rewrite H2, Q'. reflexivity.
    + eapply denotes_weak; [apply le_n| |exact D]. intros m ob. unfold env_with. destruct (n =? m)%Z; auto. intros ->. reflexivity.
  - destruct (G4 _ _ _ Hd) as [d' Hd']. rewrite <- H3 in Hd'. destruct d'.
    + destruct (j4 _ _ _ _ HJf _ _ _ Hd') as (r & R1 & R2). cbn [denotes]. split; [exact Ls|]. exists r, true. split; [exact R1|]. unfold env_with in Em. destruct (n =? m)%Z; [discriminate|]. rewrite Em, <- H2. exact R2.
    + exfalso. apply (proj2 (j6 _ _ _ _ HJf m)). exists s. exact Hd'.
Qed.
