(** C87: declarations in the generated C declare what they should. *)
From Verif Require Import Base CdclModel CdclSpec.
Require Import Coq.Strings.String.
Local Open Scope list_scope.

Ltac same := change open_array with isDyn in *; change array with isArr in *; change record with isRec in *.
Lemma flat_app : forall a b, flat (a ++ b) = flat a ++ flat b. Proof. intros. unfold flat. apply flat_map_app. Qed.
Lemma flat_star : forall k, flat (repeat (Tok TStar) k) = repeat TStar k. Proof. induction k; cbn; [auto|]. f_equal. auto. Qed.
Lemma matched_par : forall l, matched (Par l) <-> Forall matched l.
Proof. intros l. cbn [matched]. induction l as [|a l IH]; [split; auto|]. rewrite Forall_cons_iff, <- IH. reflexivity. Qed.
Lemma matched_sq : forall l, matched (Sq l) <-> Forall matched l. Proof. intros l. rewrite <- matched_par. reflexivity. Qed.
Lemma matched_br : forall l, matched (Br l) <-> Forall matched l. Proof. intros l. rewrite <- matched_par. reflexivity. Qed.
Fixpoint ptrs (k : nat) (T : ctype) : ctype := match k with O => T | S k => ptrs k (CPtr T) end.
Lemma stars_declr : forall k T D x U, declr (ptrs k T) D x U -> declr T (repeat (Tok TStar) k ++ D) x U.
Proof. induction k as [|k IH]; intros T D x U H; [auto|]. cbn [repeat app]. apply d_ptr. apply IH. auto. Qed.
(** The type in front of the declarator. *)
Fixpoint bt (t : ty) : ctype :=
  match t with
  | Named x _ => CName x | Rec tag => CStruct tag | Arr _ u => bt u | Dyn _ u => bt u
  | Ptr u => if isDyn u then block (dims u) (ct u) else bt u
  | Proc r _ => result r
  end.
Definition reads (text : list tok) (T : ctype) (x : option name) (U : ctype) : Prop := exists L, Forall matched L /\ flat L = text /\ declr T L x U.
Definition sfx (t : ty) (o : bool) : list tok := snd (pr t) o.
Definition bas (t : ty) : list tok := fst (fst (pr t)).
Definition blk (t : ty) (n : nat) : list tok := snd (fst (pr t)) n.
Definition reads_params (text : list tok) (ps : list (option name * ctype)) : Prop := exists P, Forall matched P /\ flat P = text /\ plist1 P ps.
Definition PA (t : ty) : Prop := isDyn t = false ->
  (forall D x W, Forall matched D -> dir (ct t) D x W -> reads (fst (Stars t 0) ++ flat D ++ sfx t false) (bt t) x W) /\
  (snd (Stars t 0) = false -> forall D x W, Forall matched D -> declr (ct t) D x W -> reads (fst (Stars t 0) ++ flat D ++ sfx t false) (bt t) x W) /\
  ((forall r ps, t <> Proc r ps) -> forall k D x W, Forall matched D -> declr (ptrs (S k) (ct t)) D x W -> reads (fst (Stars t (S k)) ++ flat D ++ sfx t true) (bt t) x W).
Definition PB (t : ty) : Prop := exists S, Forall matched S /\ flat S = bas t /\ spec S (bt t) /\ S <> [].
Definition PK (t : ty) : Prop := forall n, (n + dims t > 0)%nat -> exists S, Forall matched S /\ flat S = blk t n /\ spec S (block (n + dims t) (ct t)).
Lemma last_star : forall k T D x U, Forall matched D -> declr (ptrs k T) D x U -> reads (repeat TStar k ++ flat D) T x U.
Proof.
  intros k T D x U M H. exists (repeat (Tok TStar) k ++ D). split; [apply Forall_app; split; auto; apply Forall_forall; intros a I; apply repeat_spec in I; subst; reflexivity|].
  split; [rewrite flat_app, flat_star; auto|]. apply stars_declr. auto.
Qed.
Lemma legal_ptr : forall u, legal (Ptr u) -> (forall r ps, u <> Proc r ps) /\ legal u.
Proof. intros u [A B]. split; auto. intros r ps ->. exact A. Qed.
Lemma isDyn_ct : forall t, isDyn t = false -> dims t = 0%nat /\ element t = t. Proof. intros [] H; try discriminate; auto. Qed.
Lemma ct_nonvoid : forall t, ct t <> CVoid. Proof. induction t; cbn; congruence. Qed.
(** Lists of parameters. *)
Definition rp (text : list tok) (p : option name * ctype) : Prop := exists P, Forall matched P /\ flat P = text /\ param P (fst p) (snd p) /\ snd p <> CVoid.
Definition cj (l : list (list tok)) : list tok := flat_map (fun t => TComma :: t) l.
Definition tailed (tl : list tok) (tps : list (option name * ctype)) : Prop := tl = [] /\ tps = [] \/ exists text, tl = TComma :: text /\ reads_params text tps.
Lemma join : forall extras es, Forall2 rp extras es -> forall a p tl tps, rp a p -> tailed tl tps -> reads_params (a ++ cj extras ++ tl) (p :: es ++ tps).
Proof.
  intros extras es F. induction F as [|b q extras es B F IH]; intros a [x U] tl tps (P & M & E & PR & NV) T; cbn [fst snd] in *.
  - destruct T as [[-> ->]|(text & -> & Q & MQ & EQ & LQ)]; cbn [cj flat_map app].
    + rewrite app_nil_r. exists P. split; auto. split; auto. constructor; auto.
    + exists (P ++ Tok TComma :: Q). split; [apply Forall_app; split; auto; constructor; [reflexivity|auto]|]. split; [rewrite flat_app; cbn [flat flat_map flat1 app]; fold (flat Q); congruence|]. constructor; auto.
  - destruct (IH b q tl tps B T) as (Q & MQ & EQ & LQ). exists (P ++ Tok TComma :: Q). split; [apply Forall_app; split; auto; constructor; [reflexivity|auto]|].
    split; [|cbn [app]; constructor; auto]. rewrite flat_app. cbn [flat flat_map flat1 app]. fold (flat Q). rewrite E, EQ. cbn [cj flat_map]. fold (cj extras). rewrite <- ?app_assoc. cbn [app]. rewrite <- ?app_assoc. reflexivity.
Qed.
Definition nmt (show : bool) (x : string) (e : ext) : list tok := if show then [TId x e] else [].
Definition nm (show : bool) (x : string) (e : ext) : option name := if show then Some (x, e) else None.
Definition nmd (show : bool) (x : string) (e : ext) : list tree := if show then [Tok (TId x e)] else [].
Lemma nmd_ok : forall show x e, Forall matched (nmd show x e) /\ flat (nmd show x e) = nmt show x e /\ forall T, dir T (nmd show x e) (nm show x e) T.
Proof. intros [] x e; cbn; repeat split; auto; intros; constructor; auto; reflexivity. Qed.
Lemma LenList_cj : forall u d show x, LenList u d show x = cj (map (fun i => TTy "ADDRESS" :: nmt show x (LenExt i)) (seq d (dims u))).
Proof.
  induction u as [y k|tag|n u IH|b u IH|u IH|r ps]; intros d show x; cbn [LenList dims seq map cj flat_map]; auto. rewrite IH. unfold nmt. cbn [app]. rewrite <- ?app_assoc. reflexivity.
Qed.
Lemma rp_address : forall show x e, rp (TTy "ADDRESS" :: nmt show x e) (nm show x e, CName "ADDRESS").
Proof.
  intros show x e. destruct (nmd_ok show x e) as (M & E & D). exists ([Tok (TTy "ADDRESS")] ++ nmd show x e). split; [apply Forall_app; split; auto|]; [constructor; [reflexivity|auto]|].
  split; [rewrite flat_app, E; reflexivity|]. cbn [fst snd]. split; [|discriminate]. apply p_decl with (T := CName "ADDRESS"); [constructor|]. apply d_dir. auto.
Qed.
Lemma rp_tag : forall show x e, rp (TTy "ADDRESS" :: TStar :: nmt show x e) (nm show x e, CPtr (CName "ADDRESS")).
Proof.
  intros show x e. destruct (nmd_ok show x e) as (M & E & D). exists ([Tok (TTy "ADDRESS")] ++ Tok TStar :: nmd show x e). split; [apply Forall_app; split; constructor; auto; reflexivity|].
  split; [rewrite flat_app; cbn [flat flat_map flat1 app]; fold (flat (nmd show x e)); rewrite E; reflexivity|]. cbn [fst snd]. split; [|discriminate]. apply p_decl with (T := CName "ADDRESS"); [constructor|]. apply d_ptr. apply d_dir. auto.
Qed.
(** Open arrays as parameters. *)
Definition PE (t : ty) : Prop := simple (Dyn false t) -> with_name t = false -> forall D x W, Forall matched D -> declr (ct t) D x W -> reads (fst (Stars t 0) ++ flat D ++ sfx t false) (bt t) x W.
Lemma plain : forall t, (match element t with Named _ _ | Rec _ => True | _ => False end) -> fst (Stars t 0) = [] /\ sfx t false = [] /\ bt t = ct t.
Proof.
  induction t as [x k|tag|n t IH|b t IH|t IH|r ps]; cbn [element]; intros H; try contradiction; auto. destruct (IH H) as (A & B & C). unfold sfx in *. destruct b; cbn; auto.
Qed.
Lemma not_open : forall t, (forall n u, t <> Arr n u) -> snd (Stars t 0) = false.
Proof.
  assert (G : forall t k, snd (Stars t (S k)) = false) by (induction t as [x k|tag|n t IH|b t IH|t IH|r ps]; intros k'; cbn [Stars]; auto; destruct b; auto).
  intros [x k|tag|n t|b t|t|r ps] H; try (exfalso; eapply H; reflexivity); try reflexivity; [destruct b; reflexivity|apply G].
Qed.
Definition PT (t : ty) : Prop := legal t -> covered t -> PA t /\ PB t /\ PK t /\ PE t.
Definition PP (ps : pars) : Prop := legals ps -> covereds ps -> forall show, ps <> PNil -> reads_params (list_of show ps) (cparams show ps).
Scheme ty_mut := Induction for ty Sort Prop with pars_mut := Induction for pars Sort Prop.
Combined Scheme ty_pars_ind from ty_mut, pars_mut.
Lemma ansi_ok : forall show ps, PP ps -> legals ps -> covereds ps -> exists P, Forall matched P /\ flat [Par P] = AnsiParamList show ps /\ plist P (cparams show ps).
Proof.
  intros show ps H L C. destruct ps as [|var x t ps].
  - exists [Tok TVoid]. split; [constructor; [reflexivity|auto]|]. split; [reflexivity|]. constructor.
  - destruct (H L C show) as (P & M & E & Q); [discriminate|]. exists P. split; auto. split; [|constructor; auto]. unfold AnsiParamList. rewrite <- E. cbn [flat flat_map flat1]. rewrite app_nil_r. reflexivity.
Qed.
Lemma PE_of : forall t, isDyn t = false -> PA t -> PE t.
Proof.
  intros t N A S W D x V M H. destruct (A N) as (_ & A2 & _). apply A2; auto. apply not_open. intros n u ->. cbn in S. contradiction.
Qed.
Lemma PK_of : forall t, isDyn t = false -> PA t -> PB t -> PK t.
Proof.
  intros t N A (S & MS & ES & SS & _) n G. destruct (A N) as (A1 & _). destruct (isDyn_ct t N) as [DZ _]. rewrite DZ in *. replace (n + 0)%nat with n by lia.
  destruct (A1 [Tok (TId "data" Plain); Sq [Tok (TNum 1)]] (Some ("data"%string, Plain)) (CArr 1 (ct t))) as (L & ML & EL & DL).
  { constructor; [reflexivity|]. constructor; [|auto]. apply matched_sq. constructor; [reflexivity|auto]. }
  { apply (r_arr (ct t) [Tok (TId "data" Plain)] 1). constructor. }
  exists [Tok TStruct; Br (([Tok (TTy "ADDRESS")] ++ [Tok (TId "len" Plain); Sq [Tok (TNum (Z.of_nat n))]]) ++ Tok TSemi :: ((S ++ L) ++ Tok TSemi :: []))]. split; [|split].
  - constructor; [reflexivity|]. constructor; [|auto]. apply matched_br. cbn [app]. constructor; [reflexivity|]. constructor; [reflexivity|]. constructor; [apply matched_sq; constructor; [reflexivity|auto]|]. constructor; [reflexivity|]. apply Forall_app. split; [apply Forall_app; auto|constructor; [reflexivity|auto]].
  - assert (BL : blk t n = [TStruct; LC; TTy "ADDRESS"; TId "len" Plain; LS; TNum (Z.of_nat n); RS; TSemi] ++ bas t ++ fst (Stars t 0) ++ [TId "data" Plain; LS; TNum 1; RS] ++ sfx t false ++ [TSemi; RC]) by (destruct t; try discriminate; reflexivity).
    rewrite BL. cbn [flat flat_map flat1 app]. rewrite flat_map_app. fold (flat (S ++ L)). rewrite flat_app, ES, EL. cbn [flat flat_map flat1 app]. rewrite <- ?app_assoc. cbn [app]. rewrite <- ?app_assoc. reflexivity.
  - constructor. apply m_cons; [apply p_decl with (T := CName "ADDRESS"); [constructor|]; apply d_dir; apply (r_arr (CName "ADDRESS") [Tok (TId "len" Plain)]); constructor|].
    apply m_cons; [|constructor]. apply p_decl with (T := bt t); auto.
Qed.
Lemma object_ok : forall t, PA t -> PE t -> simple t -> forall vp N x, (isDyn t = true -> vp = true) -> Forall matched N -> (forall T, dir T N x T) ->
  reads (fst (Stars t 0) ++ (if vp then (if snd (Stars t 0) then [LP] else []) ++ [TStar] else []) ++ flat N ++ (if vp && snd (Stars t 0) then [RP] else []) ++ sfx t false) (bt t) x (if vp then CPtr (ct t) else ct t).
Proof.
  intros t A E SM vp N x V M D. destruct vp; cbn [andb].
  - destruct (isDyn t) eqn:DT.
    + assert (O : snd (Stars t 0) = false) by (apply not_open; intros n u ->; discriminate). rewrite O. cbn [app].
      assert (DS : declr (ct t) (Tok TStar :: N) x (CPtr (ct t))) by (apply d_ptr; apply d_dir; auto). assert (MS : Forall matched (Tok TStar :: N)) by (constructor; [reflexivity|auto]).
      assert (Q : (match element t with Named _ _ | Rec _ => True | _ => False end) \/ simple (Dyn false t) /\ with_name t = false).
      { destruct t as [| | |b u| |]; try discriminate. unfold simple in *. cbn [element with_name] in *. destruct (element u); auto. }
      destruct Q as [Q|[Q W]].
      * destruct (plain t Q) as (P1 & P2 & P3). rewrite P1, P2, P3, app_nil_r. cbn [app]. exists (Tok TStar :: N). auto.
      * apply (E Q W (Tok TStar :: N)); auto.
    + destruct (A DT) as (A1 & A2 & _). destruct (snd (Stars t 0)) eqn:O.
      * destruct (A1 [Par (Tok TStar :: N)] x (CPtr (ct t))) as (L & ML & EL & DL); [constructor; [apply matched_par; constructor; [reflexivity|auto]|auto]|apply r_par; [discriminate|]; apply d_ptr; apply d_dir; auto|].
        exists L. split; auto. split; auto. rewrite EL. cbn [flat flat_map flat1 app]. fold (flat N). rewrite <- ?app_assoc. cbn [app]. rewrite <- ?app_assoc. reflexivity.
      * cbn [app]. apply (A2 eq_refl (Tok TStar :: N)); [constructor; [reflexivity|auto]|]. apply d_ptr. apply d_dir. auto.
  - cbn [app]. assert (DT : isDyn t = false) by (destruct (isDyn t); auto; specialize (V eq_refl); discriminate). destruct (A DT) as (A1 & _). apply A1; auto.
Qed.
Lemma both_ok : (forall t, PT t) /\ (forall ps, PP ps).
Proof.
  apply (ty_pars_ind PT PP).
  - intros x k _ _. assert (A : PA (Named x k)). { intros _. split; [|split]; cbn [ct bt Stars Nat.eqb fst snd sfx pr app]; [intros D y W M H; rewrite app_nil_r; exists D; auto using d_dir|intros _ D y W M H; rewrite app_nil_r; exists D; auto|].
      intros _ k' D y W M H. rewrite app_nil_r. apply (last_star (S k')); auto. }
    assert (B : PB (Named x k)). { exists [Tok (TTy x)]. split; [constructor; [reflexivity|auto]|]. split; [reflexivity|]. split; [constructor|discriminate]. }
    split; [assumption|split; [assumption|split; [apply PK_of; auto|apply PE_of; auto]]].
  - intros x _ _. assert (A : PA (Rec x)). { intros _. split; [|split]; cbn [ct bt Stars Nat.eqb fst snd sfx pr app]; [intros D y W M H; rewrite app_nil_r; exists D; auto using d_dir|intros _ D y W M H; rewrite app_nil_r; exists D; auto|].
      intros _ k' D y W M H. rewrite app_nil_r. apply (last_star (S k')); auto. }
    assert (B : PB (Rec x)). { exists [Tok (TSt x)]. split; [constructor; [reflexivity|auto]|]. split; [reflexivity|]. split; [constructor|discriminate]. }
    split; [assumption|split; [assumption|split; [apply PK_of; auto|apply PE_of; auto]]].
  - intros n u IH [N L] C. destruct (IH L C) as (A & B & _). destruct (A N) as (A1 & _).
    assert (MS : matched (Sq [Tok (TNum n)])) by (apply matched_sq; constructor; [reflexivity|auto]).
    assert (A' : PA (Arr n u)).
    { intros _. split; [|split].
      - intros D x W M H. destruct (A1 (D ++ [Sq [Tok (TNum n)]]) x W) as (X & MX & EX & DX); [apply Forall_app; auto|constructor; auto|]. exists X. split; auto. split; auto. rewrite EX, flat_app. cbn. rewrite <- ?app_assoc. reflexivity.
      - cbn. discriminate.
      - intros _ k D x W M H. destruct (A1 ([Par (repeat (Tok TStar) (S k) ++ D)] ++ [Sq [Tok (TNum n)]]) x W) as (X & MX & EX & DX).
        + apply Forall_app. split; [|auto]. constructor; [|auto]. apply matched_par. apply Forall_app. split; auto. apply Forall_forall. intros a I. apply repeat_spec in I. subst. reflexivity.
        + apply r_arr. apply r_par; [discriminate|]. apply stars_declr. auto.
        + exists X. split; auto. split; auto. rewrite EX. cbn [Stars Nat.eqb fst]. rewrite flat_app. cbn [flat flat_map flat1]. rewrite flat_map_app. fold (flat (repeat (Tok TStar) (S k))). fold (flat D). rewrite flat_star.
          unfold sfx. cbn [pr snd]. rewrite <- ?app_assoc. cbn [app]. rewrite <- ?app_assoc. cbn [app]. rewrite <- ?app_assoc. reflexivity. }
    assert (B' : PB (Arr n u)) by exact B. split; [assumption|split; [assumption|split; [apply PK_of; auto|apply PE_of; auto]]].
  - intros b u IH L C. destruct (IH L C) as (A & B & K & E). split; [intros N; discriminate|]. split; [exact B|]. split.
    + intros n G. destruct (K (S n)) as (S0 & MS & ES & SS); [lia|]. exists S0. split; auto. split; auto. cbn [dims ct]. replace (n + S (dims u))%nat with (S n + dims u)%nat by lia. auto.
    + intros S W D x V M H. cbn [with_name] in W. apply orb_false_iff in W as [-> W]. apply E; auto.
  - intros u IH LP C. apply legal_ptr in LP as [NP L]. destruct (IH L C) as (A & B & K & E).
    assert (A' : PA (Ptr u)).
    { intros _. destruct (isDyn u) eqn:DU.
      - assert (ST : forall k, fst (Stars u (S k)) = repeat TStar (S k)) by (intros k; destruct u as [| | |[] u| |]; try discriminate; reflexivity).
        assert (SF : forall o, sfx (Ptr u) o = []) by (intros o; unfold sfx; cbn [pr snd]; rewrite DU; reflexivity).
        cbn [ct bt]. same. rewrite DU. split; [|split].
        + intros D x W M H. rewrite SF, app_nil_r. change (Stars (Ptr u) 0) with (Stars u 1). rewrite ST. apply (last_star 1); auto. apply d_dir. auto.
        + intros _ D x W M H. rewrite SF, app_nil_r. change (Stars (Ptr u) 0) with (Stars u 1). rewrite ST. apply (last_star 1); auto.
        + intros _ k D x W M H. rewrite SF, app_nil_r. change (Stars (Ptr u) (S k)) with (Stars u (S (S k))). rewrite ST. apply (last_star (S (S k))); auto.
      - destruct (A DU) as (_ & _ & A3). assert (SF : forall o, sfx (Ptr u) o = sfx u true) by (intros o; unfold sfx; cbn [pr snd]; rewrite DU; reflexivity). cbn [ct bt]. same. rewrite DU. split; [|split].
        + intros D x W M H. rewrite SF. apply (A3 NP 0%nat); auto. apply d_dir. auto.
        + intros _ D x W M H. rewrite SF. apply (A3 NP 0%nat); auto.
        + intros _ k D x W M H. rewrite SF. apply (A3 NP (S k)); auto. }
    assert (B' : PB (Ptr u)).
    { unfold PB. destruct (isDyn u) eqn:DU.
      - destruct (K 0%nat) as (S & MS & ES & SS); [destruct u; try discriminate; cbn; lia|]. exists S. split; auto. cbn [bt]. same. rewrite DU. split; [unfold bas; cbn [pr fst]; rewrite DU; auto|]. split; auto. inversion SS; discriminate.
      - destruct B as (S & MS & ES & SS & NS). exists S. split; auto. cbn [bt]. same. rewrite DU. split; [unfold bas; cbn [pr fst]; rewrite DU; auto|]. auto. }
    split; [assumption|split; [assumption|split; [apply PK_of; auto|apply PE_of; auto]]].
  - intros r ps IH L C. destruct (ansi_ok false ps IH L C) as (P & MP & EP & QP).
    assert (A' : PA (Proc r ps)).
    { assert (G : forall D x W, Forall matched D -> declr (ct (Proc r ps)) D x W -> reads (fst (Stars (Proc r ps) 0) ++ flat D ++ sfx (Proc r ps) false) (bt (Proc r ps)) x W).
      { intros D x W M H. exists ([Par (Tok TStar :: D)] ++ [Par P]). split; [apply Forall_app; split; constructor; auto; apply matched_par; auto; constructor; [reflexivity|auto]|]. split.
        - rewrite flat_app, EP. cbn [flat flat_map flat1 Stars Nat.eqb fst]. unfold sfx. cbn [pr snd]. unfold AnsiParamList. fold (flat D). cbn [app]. rewrite <- ?app_assoc. reflexivity.
        - apply d_dir. apply r_fun with (ps := cparams false ps); auto. apply r_par; [discriminate|]. apply d_ptr. auto. }
      intros _. split; [|split].
      - intros D x W M H. apply G; auto. apply d_dir. auto.
      - intros _. auto.
      - intros N. exfalso. apply (N r ps). reflexivity. }
    assert (B' : PB (Proc r ps)). { destruct r as [r|]; [exists [Tok (TTy r)]|exists [Tok TVoid]]; (split; [constructor; [reflexivity|auto]|]; split; [reflexivity|]; split; [constructor|discriminate]). }
    split; [assumption|split; [assumption|split; [apply PK_of; auto|apply PE_of; auto]]].
  - intros _ _ show N. congruence.
  - intros var x t IHt ps IHp [L Ls] (SM & C & Cs) show _. destruct (IHt L C) as (A & (S0 & MS & ES & SS & _) & _ & E).
    destruct (nmd_ok show x Plain) as (MN & EN & DN).
    set (extras := if isDyn t then map (fun i => TTy "ADDRESS" :: nmt show x (LenExt i)) (seq 0 (dims t)) else if var && isRec t then [TTy "ADDRESS" :: TStar :: nmt show x TagExt] else []).
    assert (F : Forall2 rp extras (follow show var x t)).
    { unfold extras, follow. same. destruct (isDyn t); [|destruct (var && isRec t); [constructor; [apply rp_tag|constructor]|constructor]]. induction (seq 0 (dims t)); cbn [map]; constructor; auto. apply rp_address. }
    set (tl := match ps with PNil => [] | _ => [TComma] ++ list_of show ps end).
    assert (T : tailed tl (cparams show ps)). { destruct ps as [|v' x' t' ps']; [left; auto|]. right. exists (list_of show (PCons v' x' t' ps')). split; auto. apply IHp; auto. discriminate. }
    set (vp := var && negb (isArr t) || isDyn t).
    set (d := fst (Stars t 0) ++ (if vp then (if snd (Stars t 0) then [LP] else []) ++ [TStar] else []) ++ flat (nmd show x Plain) ++ (if vp && snd (Stars t 0) then [RP] else []) ++ sfx t false).
    assert (TX : list_of show (PCons var x t ps) = (bas t ++ d) ++ cj extras ++ tl).
    { assert (EX : match t with Dyn _ u => [TComma; TTy "ADDRESS"] ++ (if show then [TId x (LenExt 0)] else []) ++ LenList u 1 show x
        | _ => if var && isRec t then [TComma; TTy "ADDRESS"; TStar] ++ (if show then [TId x TagExt] else []) else [] end = cj extras).
      { unfold extras. destruct t as [y k|y|n u|b u|u|r qs]; cbn [isDyn]; try (destruct (var && isRec _); [cbn [cj flat_map app]; rewrite app_nil_r|]; reflexivity). cbn [dims seq map cj flat_map]. rewrite LenList_cj. reflexivity. }
      cbn [list_of]. rewrite EX. unfold d, bas, sfx. rewrite EN. unfold nmt. fold vp. destruct (Stars t 0) as [s o]. cbn [fst snd]. rewrite <- !app_assoc. reflexivity. }
    rewrite TX. cbn [cparams]. apply join with (p := (nm show x Plain, passed var t (ct t))); auto.
    destruct (object_ok t A E SM vp (nmd show x Plain) (nm show x Plain)) as (D & MD & ED & DD); auto; [intros HD; unfold vp; rewrite HD; apply orb_true_r|].
    exists (S0 ++ D). split; [apply Forall_app; auto|]. split; [rewrite flat_app, ES, ED; auto|]. cbn [fst snd]. unfold passed. same. rewrite (orb_comm (isDyn t)). fold vp. split; [apply p_decl with (T := bt t); auto|].
    destruct vp; [discriminate|apply ct_nonvoid].
Qed.
(** ** The text has one reading. *)
Section TreeInd.
Variable P : tree -> Prop.
Hypothesis HT : forall t, P (Tok t).
Hypothesis HP : forall l, Forall P l -> P (Par l).
Hypothesis HS : forall l, Forall P l -> P (Sq l).
Hypothesis HB : forall l, Forall P l -> P (Br l).
Fixpoint tree_all (t : tree) : P t :=
  let all := fix all (l : list tree) : Forall P l := match l with [] => Forall_nil P | a :: l => Forall_cons a (tree_all a) (all l) end in
  match t with Tok t => HT t | Par l => HP l (all l) | Sq l => HS l (all l) | Br l => HB l (all l) end.
End TreeInd.
Definition closing (r : list tok) : Prop := match r with [] => True | RP :: _ | RS :: _ | RC :: _ => True | _ => False end.
Definition one (a : tree) : Prop := matched a -> forall b r s, matched b -> flat1 a ++ r = flat1 b ++ s -> a = b /\ r = s.
Lemma flat1_open : forall a, matched a -> exists t r, flat1 a = t :: r /\ match t with RP | RS | RC => False | _ => True end.
Proof. intros [t|l|l|l] M; [exists t, []; split; auto; cbn in M; destruct t; auto; discriminate| | |]; cbn [flat1]; eexists _, _; (split; [reflexivity|exact I]). Qed.
Lemma flat_inj : forall l, Forall one l -> Forall matched l -> forall m r s, Forall matched m -> closing r -> closing s -> flat l ++ r = flat m ++ s -> l = m /\ r = s.
Proof.
  induction l as [|a l IH]; intros O M m r s N CR CS E.
  - destruct m as [|b m]; [auto|]. exfalso. apply Forall_inv in N. destruct (flat1_open b N) as (t & q & F & Z). cbn [flat flat_map app] in E. rewrite F in E. cbn [app] in E. subst r. cbn in CR. destruct t; auto.
  - destruct m as [|b m].
    + exfalso. apply Forall_inv in M. destruct (flat1_open a M) as (t & q & F & Z). cbn [flat flat_map app] in E. rewrite F in E. cbn [app] in E. subst s. cbn in CS. destruct t; auto.
    + apply Forall_cons_iff in O as [Oa O]. apply Forall_cons_iff in M as [Ma M]. apply Forall_cons_iff in N as [Nb N]. cbn [flat flat_map] in E. rewrite <- !app_assoc in E. destruct (Oa Ma b _ _ Nb E) as [-> E'].
      destruct (IH O M m r s N CR CS E') as [-> ->]. auto.
Qed.
Lemma all_one : forall a, one a.
Proof.
  apply tree_all.
  - intros t M b r s N E. cbn in M. destruct b as [u|l|l|l]; cbn [flat1 app] in E; injection E as -> E; [subst; auto| | |]; discriminate.
  - intros l O M b r s N E. destruct b as [u|m|m|m]; cbn [flat1 app] in E; [injection E as <- _; cbn in N; discriminate| |discriminate|discriminate]. injection E as E. apply matched_par in M. apply matched_par in N. rewrite <- !app_assoc in E.
    destruct (flat_inj l O M m (RP :: r) (RP :: s) N I I E) as [-> E']. injection E' as ->. auto.
  - intros l O M b r s N E. destruct b as [u|m|m|m]; cbn [flat1 app] in E; [injection E as <- _; cbn in N; discriminate|discriminate| |discriminate]. injection E as E. apply matched_sq in M. apply matched_sq in N. rewrite <- !app_assoc in E.
    destruct (flat_inj l O M m (RS :: r) (RS :: s) N I I E) as [-> E']. injection E' as ->. auto.
  - intros l O M b r s N E. destruct b as [u|m|m|m]; cbn [flat1 app] in E; [injection E as <- _; cbn in N; discriminate|discriminate|discriminate|]. injection E as E. apply matched_br in M. apply matched_br in N. rewrite <- !app_assoc in E.
    destruct (flat_inj l O M m (RC :: r) (RC :: s) N I I E) as [-> E']. injection E' as ->. auto.
Qed.
Lemma flat_unique : forall l m, Forall matched l -> Forall matched m -> flat l = flat m -> l = m.
Proof.
  intros l m M N E. destruct (flat_inj l) with (m := m) (r := @nil tok) (s := @nil tok) as [-> _]; auto; try exact I; [apply Forall_forall; intros; apply all_one|]. rewrite E. reflexivity.
Qed.
Scheme declr_m := Minimality for declr Sort Prop with dir_m := Minimality for dir Sort Prop with spec_m := Minimality for spec Sort Prop with param_m := Minimality for param Sort Prop
  with plist_m := Minimality for plist Sort Prop with plist1_m := Minimality for plist1 Sort Prop with members_m := Minimality for members Sort Prop.
Combined Scheme grammar_ind from declr_m, dir_m, spec_m, param_m, plist_m, plist1_m, members_m.
(** What occurs at the outermost level. *)
Definition dtop (a : tree) : Prop := match a with Tok TStar | Tok (TId _ _) | Par _ | Sq _ => True | _ => False end.
Definition ptop (a : tree) : Prop := match a with Tok TComma | Tok TSemi => False | _ => True end.
Definition shead (l : list tree) : Prop := match l with Tok (TTy _) :: _ | Tok (TSt _) :: _ | Tok TVoid :: _ | Tok TStruct :: _ => True | _ => False end.
Definition rhead (l : list tree) : Prop := match l with Tok TStar :: _ => False | _ => True end.
Lemma tops : (forall T D x U, declr T D x U -> Forall dtop D) /\ (forall T D x U, dir T D x U -> Forall dtop D /\ rhead D) /\ (forall S T, spec S T -> Forall ptop S /\ shead S) /\
  (forall P x U, param P x U -> Forall ptop P /\ shead P) /\ (forall P ps, plist P ps -> shead P) /\ (forall P ps, plist1 P ps -> shead P) /\ (forall M ms, members M ms -> True).
Proof.
  assert (DP : forall D, Forall dtop D -> Forall ptop D). { intros D H. eapply Forall_impl; [|exact H]. intros [[]| | |]; cbn; auto. }
  assert (SA : forall S D, shead S -> shead (S ++ D)). { intros [|[[]| | |] S] D H; cbn in *; try contradiction; auto. }
  assert (RA : forall D a, rhead D -> (match a with Par _ | Sq _ => True | _ => False end) -> rhead (D ++ [a])). { intros D a H G. destruct a; try contradiction; destruct D as [|[[]| | |] D]; cbn in *; try contradiction; auto. }
  apply (grammar_ind (fun T D x U => Forall dtop D) (fun T D x U => Forall dtop D /\ rhead D) (fun S T => Forall ptop S /\ shead S) (fun P x U => Forall ptop P /\ shead P) (fun P ps => shead P) (fun P ps => shead P) (fun M ms => True)).
  - intros T D x U _ IH. constructor; [exact I|auto].
  - intros T D x U _ [IH _]. auto.
  - intros. split; [repeat constructor|exact I].
  - intros. split; [constructor|exact I].
  - intros. split; [repeat constructor|exact I].
  - intros T D n x U _ [A B]. split; [apply Forall_app; split; auto; repeat constructor|apply RA; cbn; auto].
  - intros T D P ps x U _ _ _ [A B]. split; [apply Forall_app; split; auto; repeat constructor|apply RA; cbn; auto].
  - intros. split; [repeat constructor|exact I].
  - intros. split; [repeat constructor|exact I].
  - intros. split; [repeat constructor|exact I].
  - intros. split; [repeat constructor|exact I].
  - intros S T D x U _ [A B] _ C. split; [apply Forall_app; auto|auto].
  - exact I.
  - auto.
  - intros P x U _ [_ A] _. auto.
  - intros P Q x U ps _ [_ A] _ _ _. auto.
  - auto.
  - auto.
Qed.
Lemma declr_nil : forall T x U, declr T [] x U -> x = None /\ U = T.
Proof.
  intros T x U H. inversion H as [|? ? ? ? D]; subst. inversion D; subst; auto; match goal with h : _ ++ _ = [] |- _ => apply app_eq_nil in h as [_ h]; discriminate end.
Qed.
Lemma spec_split : forall S T, spec S T -> forall S' T' D D', spec S' T' -> Forall dtop D -> Forall dtop D' -> S ++ D = S' ++ D' -> S = S' /\ D = D'.
Proof. intros S T H S' T' D D' H' F F' E. destruct H; destruct H'; cbn [app] in E; injection E; intros; subst; auto; try discriminate. Qed.
Lemma sep_split : forall c, (c = TComma \/ c = TSemi) -> forall P P' Q Q', Forall ptop P -> Forall ptop P' -> P ++ Tok c :: Q = P' ++ Tok c :: Q' -> P = P' /\ Q = Q'.
Proof.
  intros c HC P. assert (N : ~ ptop (Tok c)) by (destruct HC; subst; auto). induction P as [|a P IH]; intros [|a' P'] Q Q' F F' E; cbn [app] in E; injection E; clear E; intros; subst; auto.
  - apply Forall_inv in F'. contradiction.
  - apply Forall_inv in F. contradiction.
  - apply Forall_inv_tail in F. apply Forall_inv_tail in F'. destruct (IH P' Q Q' F F' ltac:(assumption)) as [-> ->]. auto.
Qed.
Lemma sep_none : forall c, (c = TComma \/ c = TSemi) -> forall P Q, ~ Forall ptop (P ++ Tok c :: Q).
Proof. intros c HC P Q H. apply Forall_app in H as [_ H]. apply Forall_inv in H. destruct HC; subst; auto. Qed.
Ltac tails := repeat match goal with
  | h : _ ++ [_] = _ ++ [_] |- _ => apply app_inj_tail in h as [? h]
  | h : ?l ++ [_] = [_] |- _ => apply (app_inj_tail l []) in h as [? h]
  | h : [_] = _ ++ [_] |- _ => symmetry in h
  | h : [] = ?l ++ [_] |- _ => destruct l; discriminate h
  | h : ?l ++ [_] = [] |- _ => destruct l; discriminate h
  end.
Lemma unique : (forall T D x U, declr T D x U -> forall y V, declr T D y V -> x = y /\ U = V) /\ (forall T D x U, dir T D x U -> forall y V, dir T D y V -> x = y /\ U = V) /\ (forall S T, spec S T -> forall T', spec S T' -> T = T') /\
  (forall P x U, param P x U -> forall y V, param P y V -> x = y /\ U = V) /\ (forall P ps, plist P ps -> forall qs, plist P qs -> ps = qs) /\ (forall P ps, plist1 P ps -> forall qs, plist1 P qs -> ps = qs) /\
  (forall M ms, members M ms -> forall ns, members M ns -> ms = ns).
Proof.
  destruct tops as (T1 & T2 & T3 & T4 & T5 & T6 & _).
  assert (NV : forall ps, ~ plist1 [Tok TVoid] ps).
  { intros ps H. inversion H as [P x U PR NV E|P Q x U qs PR NV R E]; subst.
    - inversion PR as [S T D x' U' SP DD EQ]; subst. inversion SP; subst; cbn in EQ; try discriminate. injection EQ as ->. apply declr_nil in DD as [_ ->]. auto.
    - destruct P as [|a [|b P]]; cbn in E; try discriminate. }
  assert (NE : forall (l : list tree) a, [] <> l ++ [a]) by (intros [|] a E; discriminate E).
  assert (HS : forall D T x U, declr T D x U -> shead D -> False).
  { intros D T x U H S. apply T1 in H. destruct D as [|[[]| | |] D]; cbn in S; auto; apply Forall_inv in H; auto. }
  apply (grammar_ind (fun T D x U => forall y V, declr T D y V -> x = y /\ U = V) (fun T D x U => forall y V, dir T D y V -> x = y /\ U = V) (fun S T => forall T', spec S T' -> T = T')
    (fun P x U => forall y V, param P y V -> x = y /\ U = V) (fun P ps => forall qs, plist P qs -> ps = qs) (fun P ps => forall qs, plist1 P qs -> ps = qs) (fun M ms => forall ns, members M ns -> ms = ns)).
  - intros T D x U _ IH y V H. inversion H as [|? ? ? ? DR]; subst; auto. apply T2 in DR as [_ []].
  - intros T D x U DR IH y V H. inversion H as [? ? ? ? DR'|]; subst; auto. apply T2 in DR as [_ []].
  - intros T x e y V H. inversion H; subst; auto.
    + match goal with h : _ ++ _ = [_] |- _ => apply (app_inj_tail _ []) in h as [_ h]; discriminate end.
    + match goal with h : _ ++ _ = [_] |- _ => apply (app_inj_tail _ []) in h as [_ h]; discriminate end.
  - intros T y V H. inversion H; subst; auto; match goal with h : _ ++ _ = [] |- _ => symmetry in h; apply NE in h; contradiction end.
  - intros T D x U N DD IH y V H. inversion H; subst; auto.
    + match goal with h : _ ++ _ = [_] |- _ => apply (app_inj_tail _ []) in h as [_ h]; discriminate end.
    + match goal with h : _ ++ _ = [_] |- _ => apply (app_inj_tail _ []) in h as [? h]; injection h as ->; subst end. exfalso. apply (HS _ _ _ _ DD). eapply T5. eassumption.
  - intros T D n x U _ IH y V H. inversion H; subst; tails; try discriminate; subst.
    + injection H0 as ->. auto.
  - intros T D P ps x U PL IP DR IH y V H. inversion H; subst; tails; try discriminate; subst.
    + injection H0 as ->. exfalso. eapply HS; [eassumption|]. eapply T5. eassumption.
    + injection H0 as ->. match goal with h : plist P ?q |- _ => rewrite (IP _ h) in * end. auto.
  - intros x T' H. inversion H; auto.
  - intros x T' H. inversion H; auto.
  - intros T' H. inversion H; auto.
  - intros M ms _ IH T' H. inversion H; subst. f_equal. auto.
  - intros S T D x U SP IS DD IH y V H. inversion H as [S' T' D' x' U' SP' DD' E]; subst. destruct (spec_split _ _ SP _ _ D D' SP' (T1 _ _ _ _ DD) (T1 _ _ _ _ DD') (eq_sym E)) as [<- <-].
    rewrite (IS _ SP') in *. auto.
  - intros qs H. inversion H as [|P ps PL]; subst; auto. apply NV in PL. contradiction.
  - intros P ps PL IH qs H. inversion H as [|P' ps' PL']; subst; auto. apply NV in PL. contradiction.
  - intros P x U PR IH NU qs H. inversion H as [P' x' U' PR' NU' E|P' Q' x' U' qs' PR' NU' R' E]; subst.
    + destruct (IH _ _ PR') as [-> ->]. auto.
    + exfalso. apply T4 in PR as [PR _]. apply (sep_none TComma (or_introl eq_refl) _ _ PR).
  - intros P Q x U ps PR IH NU R IR qs H. inversion H as [P' x' U' PR' NU' E|P' Q' x' U' qs' PR' NU' R' E]; subst.
    + exfalso. apply T4 in PR' as [PR' _]. apply (sep_none TComma (or_introl eq_refl) _ _ PR').
    + destruct (sep_split TComma (or_introl eq_refl) P P' Q Q' (proj1 (T4 _ _ _ PR)) (proj1 (T4 _ _ _ PR')) (eq_sym E)) as [<- <-]. destruct (IH _ _ PR') as [-> ->]. f_equal. auto.
  - intros ns H. inversion H as [|P Q x U ms PR R E]; subst; auto. destruct P; discriminate.
  - intros P Q x U ms PR IH R IR ns H. inversion H as [E|P' Q' x' U' ms' PR' R' E]; subst; [destruct P; discriminate|].
    destruct (sep_split TSemi (or_intror eq_refl) P P' Q Q' (proj1 (T4 _ _ _ PR)) (proj1 (T4 _ _ _ PR')) (eq_sym E)) as [<- <-]. destruct (IH _ _ PR') as [-> ->]. f_equal. auto.
Qed.

(** ** The theorems. *)
(** A declaration in the generated C declares the name, with the C type that belongs to the Oberon type.  Partial: not for open arrays with elements that are
    arrays without a name ([C87_elements_refuted]), nor for open arrays with a name whose elements are pointers or procedures without one ([C87_named_refuted]). *)
Theorem C87_declare_partial : forall var scopeDef x t, legal t -> covered t -> simple t -> declares (Declare var scopeDef x t) (x, Plain) (declared var scopeDef t).
Proof.
  intros var scopeDef x t L C S. destruct (proj1 both_ok t L C) as (A & (S0 & MS & ES & SS & _) & _ & E).
  destruct (object_ok t A E S (var && negb (isArr t) || isDyn t || scopeDef) [Tok (TId x Plain)] (Some (x, Plain))) as (D & MD & ED & DD).
  - intros H. rewrite H, orb_true_r. reflexivity.
  - constructor; [reflexivity|auto].
  - intros T. constructor.
  - exists (S0 ++ D). split; [apply Forall_app; auto|]. split.
    + rewrite flat_app, ES, ED. unfold Declare, DeclareObj, DeclareBase, bas, sfx. destruct (Stars t 0). reflexivity.
    + unfold declared. same. replace (isDyn t || scopeDef || var && negb (isArr t)) with (var && negb (isArr t) || isDyn t || scopeDef) by (destruct (var && negb (isArr t)), (isDyn t), scopeDef; reflexivity).
      apply p_decl with (T := bt t); auto.
Qed.
(** The head of a procedure declares its parameters, in order, with the lengths and type tags that belong to them. *)
Theorem C87_header_partial : forall r x ps, legals ps -> covereds ps -> heads (ProcHeader r x ps) x (result r) (cparams true ps).
Proof.
  intros r x ps L C. destruct (ansi_ok true ps (proj2 both_ok ps) L C) as (P & M & E & Q). exists [Tok (match r with Some r => TTy r | None => TVoid end)], P. split; [|split; [|split; auto]].
  - constructor; [destruct r; reflexivity|]. constructor; [reflexivity|]. constructor; [apply matched_par; auto|auto].
  - unfold ProcHeader. rewrite <- E. reflexivity.
  - destruct r; constructor.
Qed.
(** A text has at most one reading, so it declares nothing else. *)
Theorem C87_unique : forall text x U y V, declares text x U -> declares text y V -> x = y /\ U = V.
Proof.
  intros text x U y V (D & M & E & P) (D' & M' & E' & P'). assert (D = D') as <- by (apply flat_unique; congruence). destruct unique as (_ & _ & _ & Q & _). destruct (Q _ _ _ P _ _ P') as [A B]. injection A as ->. auto.
Qed.
Theorem C87_header_unique : forall text x T ps y U qs, heads text x T ps -> heads text y U qs -> x = y /\ T = U /\ ps = qs.
Proof.
  intros text x T ps y U qs (S & P & M & E & SP & L) (S' & P' & M' & E' & SP' & L'). assert (Q : S ++ [Tok (TId x Plain); Par P] = S' ++ [Tok (TId y Plain); Par P']) by (apply flat_unique; congruence).
  destruct (spec_split _ _ SP _ _ [Tok (TId x Plain); Par P] [Tok (TId y Plain); Par P'] SP' ltac:(repeat constructor) ltac:(repeat constructor) Q) as [<- Q']. injection Q' as -> ->.
  destruct unique as (_ & _ & A & _ & B & _). split; [reflexivity|]. split; eauto.
Qed.
(** Different C types have different texts: two declarations with the same text declare the same. *)
Corollary C87_distinct_partial : forall v s x t w z y u, legal t -> covered t -> simple t -> legal u -> covered u -> simple u -> Declare v s x t = Declare w z y u -> x = y /\ declared v s t = declared w z u.
Proof.
  intros v s x t w z y u L1 C1 S1 L2 C2 S2 E. pose proof (C87_declare_partial v s x t L1 C1 S1) as A. pose proof (C87_declare_partial w z y u L2 C2 S2) as B. rewrite <- E in B. destruct (C87_unique _ _ _ _ _ A B) as [P Q]. injection P as ->. auto.
Qed.
(** A parameter [x: ARRAY OF ARRAY 4 OF INTEGER] is declared as an array of four pointers to INTEGER, not as a pointer to arrays of four INTEGER. *)
Theorem C87_elements_refuted : exists x t, legal t /\ covered t /\ ~ declares (Declare false false x t) (x, Plain) (declared false false t) /\ declares (Declare false false x t) (x, Plain) (CArr 4 (CPtr (CName "INTEGER"))).
Proof.
  exists "x"%string, (Dyn false (Arr 4 (Named "INTEGER" KOther))). assert (R : declares (Declare false false "x" (Dyn false (Arr 4 (Named "INTEGER" KOther)))) ("x"%string, Plain) (CArr 4 (CPtr (CName "INTEGER")))).
  { exists ([Tok (TTy "INTEGER")] ++ Tok TStar :: ([Tok (TId "x" Plain)] ++ [Sq [Tok (TNum 4)]])). split; [repeat constructor|]. split; [reflexivity|]. apply p_decl with (T := CName "INTEGER"); [constructor|]. apply d_ptr. apply d_dir. apply r_arr. constructor. }
  split; [split; [reflexivity|exact I]|]. split; [exact I|]. split; [|exact R]. intros Q. destruct (C87_unique _ _ _ _ _ R Q) as [_ E]. discriminate E.
Qed.
(** A parameter [x: V] with [V = ARRAY OF POINTER TO R] is declared as a pointer to R, not as a pointer to pointers. *)
Theorem C87_named_refuted : exists x t, legal t /\ covered t /\ ~ declares (Declare false false x t) (x, Plain) (declared false false t) /\ declares (Declare false false x t) (x, Plain) (CPtr (CName "R")).
Proof.
  exists "x"%string, (Dyn true (Ptr (Named "R" KRecord))). assert (R : declares (Declare false false "x" (Dyn true (Ptr (Named "R" KRecord)))) ("x"%string, Plain) (CPtr (CName "R"))).
  { exists ([Tok (TTy "R")] ++ [Tok TStar; Tok (TId "x" Plain)]). split; [repeat constructor|]. split; [reflexivity|]. apply p_decl with (T := CName "R"); [constructor|]. apply d_ptr. apply d_dir. constructor. }
  split; [split; exact I|]. split; [exact I|]. split; [|exact R]. intros Q. destruct (C87_unique _ _ _ _ _ R Q) as [_ E]. discriminate E.
Qed.
(** [PROCEDURE P (VAR a: ARRAY OF CHAR; VAR r: R; f: PROCEDURE (x: POINTER TO ARRAY 3 OF POINTER TO R): INTEGER)], and an array of pointers to arrays of procedures. *)
Definition pars_ex : pars := PCons true "a" (Dyn false (Named "CHAR" KOther)) (PCons true "r" (Named "R" KRecord)
  (PCons false "f" (Proc (Some "INTEGER"%string) (PCons false "x" (Ptr (Arr 3 (Ptr (Named "R" KRecord)))) PNil)) PNil)).
Definition ty_ex : ty := Arr 2 (Ptr (Arr 3 (Proc None pars_ex))).
Example C87_met : (legals pars_ex /\ covereds pars_ex) /\ (legal ty_ex /\ covered ty_ex /\ simple ty_ex) /\
  ProcHeader None "P" pars_ex = [TVoid; TId "P" Plain; LP; TTy "CHAR"; TStar; TId "a" Plain; TComma; TTy "ADDRESS"; TId "a" (LenExt 0); TComma; TTy "R"; TStar; TId "r" Plain; TComma;
    TTy "ADDRESS"; TStar; TId "r" TagExt; TComma; TTy "INTEGER"; LP; TStar; TId "f" Plain; RP; LP; TTy "R"; TStar; LP; TStar; RP; LS; TNum 3; RS; RP; RP] /\
  cparams true pars_ex = [(Some ("a"%string, Plain), CPtr (CName "CHAR")); (Some ("a"%string, LenExt 0), CName "ADDRESS"); (Some ("r"%string, Plain), CPtr (CName "R")); (Some ("r"%string, TagExt), CPtr (CName "ADDRESS"));
    (Some ("f"%string, Plain), CPtr (CFun (CName "INTEGER") [CPtr (CArr 3 (CPtr (CName "R")))]))] /\
  declared false false ty_ex = CArr 2 (CPtr (CArr 3 (CPtr (CFun CVoid (map snd (cparams false pars_ex)))))) /\
  Declare false false "v" (Arr 2 (Ptr (Arr 3 (Proc None PNil)))) = [TVoid; LP; TStar; LP; TStar; TId "v" Plain; LS; TNum 2; RS; RP; LS; TNum 3; RS; RP; LP; TVoid; RP].
Proof. repeat split. Qed.

Print Assumptions C87_declare_partial.
Print Assumptions C87_header_partial.
Print Assumptions C87_unique.
Print Assumptions C87_header_unique.
Print Assumptions C87_distinct_partial.
Print Assumptions C87_elements_refuted.
Print Assumptions C87_named_refuted.
