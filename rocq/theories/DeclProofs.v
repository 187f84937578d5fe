(** Proofs about declarations. *)
From Verif Require Import Base DeclModel DeclSpec.
Open Scope nat_scope.

(** * Lists *)
Lemma updn_length : forall h i x, length (updn h i x) = length h.
Proof. induction h as [|y h IH]; intros [|i] x; cbn; auto. Qed.
Lemma updn_same : forall h i x, i < length h -> nth_error (updn h i x) i = Some x.
Proof. induction h as [|y h IH]; intros [|i] x H; cbn in *; try lia; auto. apply IH. lia. Qed.
Lemma updn_other : forall h i j x, i <> j -> nth_error (updn h i x) j = nth_error h j.
Proof. induction h as [|y h IH]; intros [|i] [|j] x H; cbn in *; try lia; auto. Qed.
Lemma nth_lt : forall {A} (h : list A) i x, nth_error h i = Some x -> i < length h.
Proof. intros. apply nth_error_Some. congruence. Qed.
Lemma nth_lt_ex : forall {A} (h : list A) i, i < length h -> exists x, nth_error h i = Some x.
Proof. intros A h i H. destruct (nth_error h i) eqn:E; [eauto|]. apply nth_error_None in E. lia. Qed.
Lemma nth_snoc_old : forall {A} (h : list A) x i, i < length h -> nth_error (h ++ [x]) i = nth_error h i.
Proof. intros. apply nth_error_app1. auto. Qed.
Lemma nth_snoc_new : forall {A} (h : list A) x, nth_error (h ++ [x]) (length h) = Some x.
Proof. intros. rewrite nth_error_app2 by lia. rewrite Nat.sub_diag. reflexivity. Qed.

(** * An induction principle for the syntax *)
Lemma texp_ind2 : forall P : texp -> Prop,
  (forall n, P (TName n)) -> (forall t, P t -> P (TArr t)) -> (forall t, P t -> P (TDyn t)) ->
  (forall b fs, Forall P fs -> P (TRec b fs)) -> (forall t, P t -> P (TPtr t)) -> (forall ps r, Forall P ps -> P (TProc ps r)) ->
  forall t, P t.
Proof.
  intros P HN HA HD HR HP HC. fix IH 1. destruct t as [n|t|t|b fs|t|ps r].
  - apply HN. - apply HA, IH. - apply HD, IH.
  - apply HR. induction fs; constructor; auto.
  - apply HP, IH.
  - apply HC. induction ps; constructor; auto.
Qed.

(** The loops of [body], named. *)
Definition fields (s : nat) (b : option name) : list texp -> state -> state :=
  fix fields (fs : list texp) (st : state) {struct fs} : state :=
    match fs with
    | [] => st
    | f :: fs =>
        let '(st, r) := hdr f LVar b st in
        let st := chkptr r (body f r b st) in
        let '(st, r) := if is_dyn st r then (err 88 st, 0) else (st, r) in
        fields fs (addf s r st)
    end.
Definition params (s : nat) : list texp -> state -> state :=
  fix params (ps : list texp) (st : state) {struct ps} : state :=
    match ps with
    | [] => st
    | p :: ps =>
        let '(st, r) := hdr p LVar None st in
        params ps (addf s r (chkptr r (body p r None st)))
    end.
Lemma body_rec : forall bo fs s b st, body (TRec bo fs) s b st = fields s b fs (rec_base bo s b st).
Proof. reflexivity. Qed.
Lemma body_proc : forall ps res s b st, body (TProc ps res) s b st = proc_result res s (params s ps st).
Proof. reflexivity. Qed.
Lemma legal_rec : forall g self bo fs, legal_type g self (TRec bo fs) <->
  (forall n, bo = Some n -> usable g self n KRec) /\ Forall (fun f => legal_type g self f /\ kind_of g f <> Some KDyn) fs.
Proof.
  intros. cbn [legal_type]. apply and_iff_compat_l. induction fs as [|f fs IH]; [split; auto|].
  rewrite Forall_cons_iff, IH. reflexivity.
Qed.
Lemma legal_proc : forall g self ps res, legal_type g self (TProc ps res) <->
  Forall (legal_type g None) ps /\ (forall n, res = Some n -> usable g None n KOther).
Proof.
  intros. cbn [legal_type]. apply and_iff_compat_r. induction ps as [|f fs IH]; [split; auto|].
  rewrite Forall_cons_iff, IH. reflexivity.
Qed.

(** * Errors are never taken back *)
Definition more (st st' : state) : Prop := exists e, errs st' = e ++ errs st.
Lemma more_refl : forall st, more st st. Proof. intro. exists []. reflexivity. Qed.
Lemma more_trans : forall a b c, more a b -> more b c -> more a c.
Proof. intros a b c [e1 E1] [e2 E2]. exists (e2 ++ e1). rewrite E2, E1, app_assoc. reflexivity. Qed.
Lemma more_err : forall n st, more st (err n st). Proof. intros. exists [n]. reflexivity. Qed.
Lemma more_eq : forall st st', errs st' = errs st -> more st st'. Proof. intros. exists []. auto. Qed.
Lemma more_squeeze : forall a b c, more a b -> more b c -> errs c = errs a -> errs b = errs a /\ errs c = errs b.
Proof.
  intros a b c [e1 E1] [e2 E2] E. rewrite E2, E1 in E. rewrite app_assoc in E.
  assert (e2 ++ e1 = []) as N. { apply (f_equal (@length Z)) in E. rewrite !app_length in E. destruct (e2 ++ e1) eqn:X; auto. rewrite <- app_length, X in E. cbn in E. lia. }
  apply app_eq_nil in N. destruct N; subst. cbn in *. split; congruence.
Qed.
Lemma err_ne : forall n st st', more st st' -> errs (err n st') <> errs st.
Proof. intros n st st' [e E] X. cbn in X. rewrite E in X. apply (f_equal (@length Z)) in X. cbn in X. rewrite app_length in X. lia. Qed.
Lemma errs_setbase : forall s v st, errs (setbase s v st) = errs st.
Proof. intros. unfold setbase. destruct (nth_error (heap st) s) as [[]|]; reflexivity. Qed.
Lemma errs_store : forall l v st, errs (store l v st) = errs st.
Proof. intros [n|s|] v st; cbn [store]; auto. apply errs_setbase. Qed.
Lemma errs_addf : forall s r st, errs (addf s r st) = errs st.
Proof. intros. unfold addf. destruct (nth_error (heap st) s) as [[]|]; reflexivity. Qed.
Lemma more_hdr : forall t l b st, more st (fst (hdr t l b st)).
Proof.
  intros t l b st. unfold hdr. destruct t.
  2-6: cbn [fst]; apply more_eq; rewrite errs_store; cbn [errs with_heap]; apply errs_store.
  destruct (lookup (store l 0 st) n) as [[s|]|]; cbn [fst].
  - destruct (is_banned b (store l 0 st) s); cbn [fst].
    + exists [58%Z]. cbn. rewrite errs_store. reflexivity.
    + apply more_eq. rewrite !errs_store. reflexivity.
  - exists [52%Z]. cbn. rewrite errs_store. reflexivity.
  - exists [52%Z; 0%Z]. cbn. rewrite errs_store. reflexivity.
Qed.
Lemma more_chkptr : forall s st, more st (chkptr s st).
Proof. intros. unfold chkptr. destruct (nth_error (heap st) s) as [[]|]; try apply more_refl. destruct b; [|apply more_refl]. destruct named; [apply more_refl|apply more_err]. Qed.
Lemma more_rec_base : forall bo s b st, more st (rec_base bo s b st).
Proof.
  intros [n|] s b st; cbn [rec_base]; [|apply more_refl]. destruct (lookup st n) as [[x|]|].
  - destruct (is_rec st x); [|apply more_err]. destruct (is_banned b st x); [apply more_err|].
    destruct (nth_error (heap st) s) as [[]|]; apply more_eq; reflexivity.
  - apply more_err.
  - exists [52%Z; 0%Z]. reflexivity.
Qed.
Lemma more_proc_result : forall r s st, more st (proc_result r s st).
Proof.
  intros [n|] s st; cbn [proc_result]; [|apply more_refl]. destruct (lookup st n) as [[x|]|].
  - destruct (is_comp st x); [apply more_err|]. destruct (nth_error (heap st) s) as [[]|]; apply more_eq; reflexivity.
  - apply more_err.
  - exists [52%Z; 0%Z]. reflexivity.
Qed.
Lemma more_ptr_name : forall n s st, more st (ptr_name n s st).
Proof.
  intros. unfold ptr_name. destruct (lookup st n) as [[x|]|].
  - destruct (is_comp st x); [apply more_eq, errs_setbase|apply more_err].
  - apply more_err.
  - destruct (length (fwd st) <? 64); [apply more_eq; reflexivity|apply more_err].
Qed.
Lemma more_sub : forall t l b st, (forall s b st, more st (body t s b st)) ->
  more st (let '(st, r) := hdr t l b st in chkptr r (body t r b st)).
Proof.
  intros t l b st H. pose proof (more_hdr t l b st) as M. destruct (hdr t l b st) as [st1 r]. cbn [fst] in M.
  eapply more_trans; [exact M|]. eapply more_trans; [apply H|apply more_chkptr].
Qed.
Lemma more_body : forall t s b st, more st (body t s b st).
Proof.
  induction t as [n|t IH|t IH|bo fs IH|t IH|ps r IH] using texp_ind2; intros s b st.
  - apply more_refl.
  - cbn [body]. pose proof (more_sub t (LBase s) b st IH) as M. destruct (hdr t (LBase s) b st) as [st1 r].
    destruct (is_dyn (chkptr r (body t r b st1)) r); auto. eapply more_trans; [exact M|]. eexists. cbn. rewrite errs_setbase.
    change (88%Z :: errs (chkptr r (body t r b st1))) with ([88%Z] ++ errs (chkptr r (body t r b st1))). reflexivity.
  - cbn [body]. apply (more_sub t (LBase s) b st IH).
  - rewrite body_rec. eapply more_trans; [apply more_rec_base|]. assert (forall st, more st (fields s b fs st)) as G; [clear st|apply G].
    induction IH as [|f fs Hf _ IH2]; intro st; [apply more_refl|].
    cbn [fields]. pose proof (more_sub f LVar b st Hf) as M. destruct (hdr f LVar b st) as [st1 r].
    eapply more_trans; [exact M|]. destruct (is_dyn (chkptr r (body f r b st1)) r).
    + eapply more_trans; [apply (more_err 88)|]. eapply more_trans; [|apply IH2]. apply more_eq, errs_addf.
    + eapply more_trans; [|apply IH2]. apply more_eq, errs_addf.
  - assert (forall st, more st (let '(st, r) := hdr t (LBase s) None st in
          let st := chkptr r (body t r None st) in
          if is_comp st r then st else err 57 (setbase s 0 st))) as G.
    { clear st. intro st. pose proof (more_sub t (LBase s) None st IH) as M. destruct (hdr t (LBase s) None st) as [st1 r].
      cbv zeta. destruct (is_comp (chkptr r (body t r None st1)) r); auto. eapply more_trans; [exact M|]. eapply more_trans; [|apply more_err]. apply more_eq, errs_setbase. }
    destruct t; try apply G. apply more_ptr_name.
  - rewrite body_proc. eapply more_trans; [|apply more_proc_result]. revert st. induction IH as [|f fs Hf _ IH2]; intro st; [apply more_refl|].
    cbn [params]. pose proof (more_sub f LVar None st Hf) as M. destruct (hdr f LVar None st) as [st1 r1].
    eapply more_trans; [exact M|]. eapply more_trans; [|apply IH2]. apply more_eq, errs_addf.
Qed.

(** * Kinds and finiteness *)
Definition kinds_kept (h h' : list struct) : Prop := forall x k, kind_at h x = Some k -> kind_at h' x = Some k.
Lemma kinds_refl : forall h, kinds_kept h h. Proof. intros h x k; auto. Qed.
Lemma kinds_trans : forall a b c, kinds_kept a b -> kinds_kept b c -> kinds_kept a c. Proof. intros a b c H1 H2 x k H; auto. Qed.
Lemma kind_at_lt : forall h x k, kind_at h x = Some k -> x < length h.
Proof. intros h x k H. unfold kind_at in H. destruct (nth_error h x) eqn:E; [|discriminate]. eapply nth_lt, E. Qed.
Lemma kind_at_eq : forall h h' x, nth_error h' x = nth_error h x -> kind_at h' x = kind_at h x.
Proof. intros h h' x H. unfold kind_at. rewrite H. reflexivity. Qed.
Lemma is_type_kept : forall h h' x, kinds_kept h h' -> is_type h x -> is_type h' x.
Proof. intros h h' x K H. unfold is_type in *. destruct (kind_at h x) as [k|] eqn:E; [|congruence]. rewrite (K _ _ E). discriminate. Qed.
Lemma not_open_kept : forall h h' x, kinds_kept h h' -> not_open h x -> not_open h' x.
Proof. intros h h' x K [H1 H2]. unfold not_open. destruct (kind_at h x) as [k|] eqn:E; [|congruence]. rewrite (K _ _ E). split; congruence. Qed.
Lemma Shaped_kept : forall h h' s, kinds_kept h h' -> Shaped h s -> Shaped h' s.
Proof.
  intros h h' s K H. destruct s as [| |b|b|b fs|b m|ps r]; cbn [Shaped] in *; auto.
  - eapply not_open_kept; eauto.
  - eapply is_type_kept; eauto.
  - destruct H as [H1 H2]. split; [intros x E; apply K; auto|]. revert H2. apply Forall_impl. intros. eapply not_open_kept; eauto.
  - destruct H as (k & H1 & H2). exists k. auto.
  - destruct H as [H1 H2]. split; auto. revert H1. apply Forall_impl. intros. eapply is_type_kept; eauto.
Qed.

(** Finite under an assumption on one structure, without the structures from [lo] to [hi]. *)
Inductive Fin (A : option nat) (lo hi : nat) (h : list struct) : nat -> Prop :=
| fin_asm : forall x, A = Some x -> Fin A lo hi h x
| fin_node : forall x s, x < lo \/ hi <= x -> nth_error h x = Some s -> s <> SUndef -> (forall y, In y (parts s) -> Fin A lo hi h y) -> Fin A lo hi h x.
Lemma Fin_keep : forall A lo hi h h' x, (forall y, y < lo \/ hi <= y -> y < length h -> nth_error h' y = nth_error h y) ->
  Fin A lo hi h x -> Fin A lo hi h' x.
Proof.
  intros A lo hi h h' x K H. induction H as [x E|x s R E N _ IH]; [apply fin_asm; auto|].
  eapply fin_node; eauto. rewrite K; auto. eapply nth_lt, E.
Qed.
Lemma Fin_weak : forall A A' lo hi hi' h x, (forall y, A = Some y -> A' = Some y) -> hi' <= hi -> Fin A lo hi h x -> Fin A' lo hi' h x.
Proof. intros A A' lo hi hi' h x HA Hh H. induction H as [x E|x s R E N _ IH]; [apply fin_asm; auto|]. eapply fin_node; eauto. lia. Qed.
Lemma Finite_Fin : forall hb h A hi x, (forall y, y < length hb -> nth_error h y = nth_error hb y) -> Finite hb x -> Fin A (length hb) hi h x.
Proof.
  intros hb h A hi x P H. induction H as [x s E N _ IH]. pose proof (nth_lt _ _ _ E). eapply fin_node; eauto. rewrite P; auto.
Qed.
Lemma Fin_Finite : forall A lo hi h x, (forall y, A = Some y -> Finite h y) -> Fin A lo hi h x -> Finite h x.
Proof. intros A lo hi h x HA H. induction H as [x E|x s R E N _ IH]; auto. econstructor; eauto. Qed.

(** * One declaration *)
Definition newbase (q : struct) (r : nat) : struct :=
  match q with SArr _ => SArr r | SDyn _ => SDyn r | SPtr _ m => SPtr r m | q => q end.
Lemma setbase_heap : forall s v st, length (heap (setbase s v st)) = length (heap st) /\
  (forall y, y <> s -> nth_error (heap (setbase s v st)) y = nth_error (heap st) y) /\
  nth_error (heap (setbase s v st)) s = option_map (fun q => newbase q v) (nth_error (heap st) s).
Proof.
  intros s v st. unfold setbase. destruct (nth_error (heap st) s) as [q|] eqn:E; [|rewrite E; auto].
  pose proof (nth_lt _ _ _ E) as L.
  destruct q; cbn [with_heap heap option_map newbase]; try (rewrite E; repeat split; auto; fail).
  all: rewrite updn_length; split; [reflexivity|]; split; [intros y N; apply updn_other; auto|apply updn_same; auto].
Qed.
Lemma setbase_rest : forall s v st, loc (setbase s v st) = loc st /\ out (setbase s v st) = out st /\ fwd (setbase s v st) = fwd st /\ errs (setbase s v st) = errs st.
Proof. intros. unfold setbase. destruct (nth_error (heap st) s) as [[]|]; repeat split; reflexivity. Qed.
Definition owner (l : place) (y : nat) : Prop := l = LBase y.
Definition inner (l : place) (st : state) : Prop := match l with LObj _ => False | LBase s => s < length (heap st) | LVar => True end.
Definition is_name (t : texp) : bool := match t with TName _ => true | _ => false end.
Lemma newbase_twice : forall q a b, newbase (newbase q a) b = newbase q b.
Proof. intros q a b. destruct q; reflexivity. Qed.
Lemma hdr_heap : forall t l b st, is_name t = false -> inner l st ->
  let st1 := fst (hdr t l b st) in
  snd (hdr t l b st) = length (heap st) /\ length (heap st1) = S (length (heap st)) /\
  (forall y, y < length (heap st) -> ~ owner l y -> nth_error (heap st1) y = nth_error (heap st) y) /\
  (forall y, owner l y -> nth_error (heap st1) y = option_map (fun q => newbase q (length (heap st))) (nth_error (heap st) y)) /\
  nth_error (heap st1) (length (heap st)) = Some (init t) /\
  loc st1 = loc st /\ out st1 = out st /\ fwd st1 = fwd st /\ errs st1 = errs st.
Proof.
  intros t l b st Hn Hl st1. set (s := length (heap st)).
  assert (hdr t l b st = (store l (length (heap (store l 0 st))) (with_heap (heap (store l 0 st) ++ [init t]) (store l 0 st)), length (heap (store l 0 st)))) as E.
  { unfold hdr. destruct t; try discriminate Hn; reflexivity. }
  unfold st1. rewrite E. cbn [fst snd]. clear E st1. destruct l as [n|o|]; [destruct Hl| |].
  - cbn [inner store] in *. destruct (setbase_heap o 0 st) as (L0 & O0 & S0). destruct (setbase_rest o 0 st) as (A1 & A2 & A3 & A4).
    set (st0 := setbase o 0 st) in *. rewrite L0. fold s.
    set (st2 := with_heap (heap st0 ++ [init t]) st0). destruct (setbase_heap o s st2) as (L2 & O2 & S2). destruct (setbase_rest o s st2) as (B1 & B2 & B3 & B4).
    rewrite B1, B2, B3, B4, L2. unfold st2 at 1 4 5 6 7. cbn [with_heap heap loc out fwd errs]. rewrite app_length, L0. cbn [length].
    assert (s = length (heap st0)) as LS by (unfold s; lia).
    split; [reflexivity|]. split; [unfold s; lia|]. split; [|split; [|split; [|auto]]].
    + intros y Hy N. assert (y <> o) as NE by (intro; subst; apply N; reflexivity). rewrite O2 by auto. unfold st2. cbn [with_heap heap]. rewrite nth_snoc_old by lia. apply O0. auto.
    + intros y Hy. injection Hy as <-. rewrite S2. unfold st2. cbn [with_heap heap]. rewrite nth_snoc_old by lia. rewrite S0.
      destruct (nth_error (heap st) o); cbn [option_map]; [rewrite newbase_twice|]; reflexivity.
    + rewrite O2 by (unfold s; lia). unfold st2. cbn [with_heap heap]. rewrite LS. apply nth_snoc_new.
  - cbn [store with_heap heap loc out fwd errs]. fold s. rewrite app_length. cbn [length].
    split; [reflexivity|]. split; [unfold s; lia|]. split; [|split; [|split; [|auto]]].
    + intros y Hy _. apply nth_snoc_old. auto.
    + intros y Hy. discriminate Hy.
    + apply nth_snoc_new.
Qed.
Lemma addf_heap : forall s r st, length (heap (addf s r st)) = length (heap st) /\ (forall y, y <> s -> nth_error (heap (addf s r st)) y = nth_error (heap st) y) /\
  loc (addf s r st) = loc st /\ out (addf s r st) = out st /\ fwd (addf s r st) = fwd st.
Proof.
  intros s r st. unfold addf. destruct (nth_error (heap st) s) as [q|]; [|auto 10].
  destruct q; cbn [with_heap heap loc out fwd]; rewrite ?updn_length; repeat split; auto; intros y N; apply updn_other; auto.
Qed.

Section Item.
Variables (hb : list struct) (T : option name) (X : option nat) (kX : kind) (g : ctx * ctx) (lc ou : list (name * obj)).
Definition find (n : name) : option obj := match assoc lc n with Some o => Some o | None => assoc ou n end.
Definition entry (n : name) : Prop :=
  match find n, known g n with
  | None, None => True
  | Some OOther, Some None => True
  | Some (OTyp s), Some (Some k) =>
      (T = Some n /\ X = Some s /\ k = kX) \/
      (T <> Some n /\ Finite hb s /\ kind_at hb s = Some k /\ forall b, nth_error hb s <> Some (SPtr b false))
  | _, _ => False
  end.
Hypothesis entries : forall n, entry n.
Hypothesis own : forall n, T = Some n -> exists x, X = Some x /\ find n = Some (OTyp x).
Hypothesis own_none : T = None -> X = None.
Let lo := length hb.

Definition inv (st : state) : Prop :=
  loc st = lc /\ out st = ou /\ lo <= length (heap st) /\ (forall y, y < lo -> nth_error (heap st) y = nth_error hb y) /\
  nth_error hb 1 = Some SBasic /\ (forall x, X = Some x -> lo <= x /\ kind_at (heap st) x = Some kX).
Definition assumed (b : option name) : option nat := match b with Some _ => None | None => X end.
Definition mode (b : option name) : Prop := b = T \/ b = None.
Definition rest (hi : nat) (st' : state) (y : nat) : Prop :=
  Fin X lo hi (heap st') y /\ exists q, nth_error (heap st') y = Some q /\ q <> SUndef /\ Shaped (heap st') q.
Definition waits (q : option struct) : Prop := q = Some (SPtr 0 false).

Lemma inv_lookup : forall st n, inv st -> lookup st n = find n.
Proof. intros st n (L & O & _). unfold lookup, find. rewrite L, O. reflexivity. Qed.
Lemma kind_hb : forall st s k, inv st -> kind_at hb s = Some k -> kind_at (heap st) s = Some k /\ s < lo.
Proof. intros st s k (_ & _ & _ & P & _) K. pose proof (kind_at_lt _ _ _ K) as L. split; auto. rewrite (kind_at_eq hb); auto. Qed.
Lemma assumed_X : forall b y, assumed b = Some y -> X = Some y.
Proof. intros [n|] y H; cbn in H; congruence. Qed.

(** A name that may be used, and a name that is used without an error. *)
Lemma use_name : forall b st n s, mode b -> inv st -> lookup st n = Some (OTyp s) -> is_banned b st s = false ->
  exists k, usable g b n k /\ kind_at (heap st) s = Some k /\ (forall hi, Fin (assumed b) lo hi (heap st) s) /\ s < length (heap st) /\
    (waits (nth_error (heap st) s) -> X = Some s /\ T = Some n).
Proof.
  intros b st n s Hb I L B. rewrite (inv_lookup _ _ I) in L. pose proof (entries n) as E. unfold entry in E. rewrite L in E.
  destruct (known g n) as [[k|]|] eqn:K; try tauto. exists k. destruct E as [(ET & EX & Ek)|(NT & F & Kh & NP)].
  - assert (b = None) as ->.
    { destruct Hb as [->|]; auto. exfalso. rewrite ET in B. cbn in B. rewrite (inv_lookup _ _ I), L in B. rewrite Nat.eqb_refl in B. discriminate. }
    destruct I as (_ & _ & _ & _ & _ & IX). destruct (IX s EX) as [L1 K1]. subst k. split; [split; [auto|congruence]|]. split; auto. split.
    + intros hi. apply fin_asm. cbn. auto.
    + split; [eapply kind_at_lt; eauto|]. auto.
  - assert (b <> Some n) by (destruct Hb as [->| ->]; congruence). destruct (kind_hb st s k I Kh) as [K1 L1]. destruct I as (I1 & I2 & I3 & P & IR).
    split; [split; auto|]. split; auto. split.
    + intros hi. apply Finite_Fin; auto.
    + split; [unfold lo in *; lia|]. intros W. unfold waits in W. rewrite P in W by auto. exfalso. eapply NP; eauto.
Qed.
Lemma name_usable : forall b st n k, mode b -> inv st -> usable g b n k -> exists s, lookup st n = Some (OTyp s) /\ is_banned b st s = false /\ kind_at (heap st) s = Some k.
Proof.
  intros b st n k Hb I [K N]. rewrite (inv_lookup _ _ I). pose proof (entries n) as E. unfold entry in E. rewrite K in E.
  destruct (find n) as [[s|]|] eqn:L; try tauto. exists s. split; auto. destruct E as [(ET & EX & Ek)|(NT & F & Kh & NP)].
  - assert (b = None) as -> by (destruct Hb as [->|]; auto; congruence). split; auto. subst k. destruct I as (_ & _ & _ & _ & _ & IX). apply IX. auto.
  - destruct (kind_hb st s k I Kh) as [K1 L1]. split; auto. unfold is_banned. destruct b as [m|]; auto. destruct Hb as [Hb|]; [|discriminate].
    destruct (own m) as (x & EX & Fx); auto. rewrite (inv_lookup _ _ I), Fx. destruct I as (_ & _ & _ & _ & _ & IX). destruct (IX x EX). apply Nat.eqb_neq. lia.
Qed.

(** After the body of a structure, and after a whole type. *)
Definition bodypost (s : nat) (b : option name) (st st' : state) : Prop :=
  inv st' /\ length (heap st) <= length (heap st') /\ (forall y, y < length (heap st) -> y <> s -> nth_error (heap st') y = nth_error (heap st) y) /\
  (exists q, nth_error (heap st') s = Some q /\ q <> SUndef /\ Shaped (heap st') q /\ forall y, In y (parts q) -> Fin (assumed b) lo (S s) (heap st') y) /\
  (forall y, S s <= y < length (heap st') -> rest (S s) st' y) /\
  kinds_kept (heap st) (heap st') /\ fwd st' = fwd st /\ ~ waits (nth_error (heap st') s).
Definition forward (t : texp) (s : nat) (st st' : state) : Prop :=
  exists n, t = TPtr (TName n) /\ known g n = None /\ length (fwd st) < 64 /\ st' = mkst (heap st) (loc st) (out st) (fwd st ++ [(s, n, false)]) (errs st).
Definition bodypre (t : texp) (s : nat) (st : state) : Prop :=
  is_name t = false /\ inv st /\ length (heap st) = S s /\ lo <= s /\ nth_error (heap st) s = Some (init t) /\
  (forall x, X = Some x -> x = s \/ ~ waits (nth_error (heap st) x)).
Definition body_ok (t : texp) : Prop := forall b s st, mode b -> bodypre t s st ->
  (errs (body t s b st) = errs st -> (legal_type g b t /\ bodypost s b st (body t s b st)) \/ forward t s st (body t s b st)) /\
  (legal_type g b t -> errs (body t s b st) = errs st) /\
  ((exists n, t = TPtr (TName n) /\ known g n = None /\ length (fwd st) < 64) -> errs (body t s b st) = errs st).

Definition sub (t : texp) (l : place) (b : option name) (st : state) : state * nat :=
  let '(st, r) := hdr t l b st in (chkptr r (body t r b st), r).
Definition subpost (t : texp) (l : place) (b : option name) (st st' : state) (r : nat) : Prop :=
  inv st' /\ length (heap st) <= length (heap st') /\
  (forall y, y < length (heap st) -> ~ owner l y -> nth_error (heap st') y = nth_error (heap st) y) /\
  (forall y, owner l y -> nth_error (heap st') y = option_map (fun q => newbase q r) (nth_error (heap st) y)) /\
  Fin (assumed b) lo (length (heap st)) (heap st') r /\
  (forall y, length (heap st) <= y < length (heap st') -> rest (length (heap st)) st' y) /\
  (exists k, kind_of g t = Some k /\ kind_at (heap st') r = Some k) /\ kinds_kept (heap st) (heap st') /\ fwd st' = fwd st /\ r <> 0.
Definition subpre (t : texp) (l : place) (st : state) : Prop :=
  inv st /\ nth_error hb 0 = Some SUndef /\
  match l with LObj _ => False | LBase s => lo <= s < length (heap st) | LVar => True end /\
  (forall x, X = Some x -> ~ waits (nth_error (heap st) x) \/ (owner l x /\ is_name t = false)).

Lemma kind_newbase : forall h h' o r, (forall y, y < length h -> y <> o -> nth_error h' y = nth_error h y) ->
  nth_error h' o = option_map (fun q => newbase q r) (nth_error h o) -> kinds_kept h h'.
Proof.
  intros h h' o r K O x k H. destruct (Nat.eq_dec x o) as [->|N].
  - unfold kind_at in *. rewrite O. destruct (nth_error h o) as [[]|]; cbn in *; auto.
  - rewrite (kind_at_eq h); auto. apply K; auto. eapply kind_at_lt, H.
Qed.
Lemma init_kind : forall t, is_name t = false -> kind_of g t <> None /\ forall h x, nth_error h x = Some (init t) -> kind_at h x = kind_of g t.
Proof. intros t H. split; [destruct t; try discriminate H; discriminate|]. intros h x E. unfold kind_at. rewrite E. destruct t; try discriminate H; reflexivity. Qed.
Lemma Finite_nz : forall h x, nth_error h 0 = Some SUndef -> kind_at h x <> None -> x <> 0.
Proof. intros h x H K ->. unfold kind_at in K. rewrite H in K. congruence. Qed.

Lemma sub_ok : forall t, body_ok t -> forall l b st, mode b -> subpre t l st ->
  let st' := fst (sub t l b st) in let r := snd (sub t l b st) in
  (errs st' = errs st -> legal_type g b t /\ subpost t l b st st' r) /\ (legal_type g b t -> errs st' = errs st).
Proof.
  intros t HB l b st Hm (I & H0 & HL & HX). assert (inner l st) as Hi by (destruct l; cbn in *; auto; lia).
  pose proof I as (IL & IO & IN & IP & I1 & IX).
  destruct (is_name t) eqn:EN.
  - (* a name *)
    destruct t as [n| | | | |]; try discriminate EN. clear EN HB. unfold sub, hdr. set (st0 := store l 0 st).
    assert (inv st0 /\ length (heap st0) = length (heap st) /\ (forall y, ~ owner l y -> nth_error (heap st0) y = nth_error (heap st) y) /\
      (forall y, owner l y -> nth_error (heap st0) y = option_map (fun q => newbase q 0) (nth_error (heap st) y)) /\ errs st0 = errs st /\ fwd st0 = fwd st) as (I0 & L0 & K0 & O0 & E0 & F0).
    { unfold st0. destruct l as [m|o|]; [destruct HL| |cbn [store]; repeat split; auto; try (intros y Hy; discriminate Hy); apply IX; auto].
      cbn [store] in *. destruct (setbase_heap o 0 st) as (Q1 & Q2 & Q3). destruct (setbase_rest o 0 st) as (A1 & A2 & A3 & A4).
      split; [|split; [auto|]; split; [intros y N; apply Q2; intro; subst; apply N; reflexivity|]; split; [intros y Hy; injection Hy as <-; auto|auto]].
      unfold inv. rewrite A1, A2, Q1. repeat split; auto.
      - intros y Hy. rewrite Q2 by lia. auto.
      - apply IX; auto.
      - destruct (IX x H). eapply (kind_newbase (heap st) _ o 0); eauto. }
    split.
    + intro E. destruct (lookup st0 n) as [[s|]|] eqn:Lk.
      2:{ cbn [fst] in E. exfalso. revert E. cbn [body]. unfold chkptr. cbn [err heap]. destruct (nth_error (heap st0) 0) as [[| | | | |[] []|]|]; cbn [errs err]; intro E; rewrite E0 in E; apply (f_equal (@length Z)) in E; cbn in E; lia. }
      2:{ cbn [fst] in E. exfalso. revert E. cbn [body]. unfold chkptr. cbn [err heap].
          destruct (nth_error (heap st0) 0) as [[| | | | |[] []|]|]; cbn [errs err]; intro E; rewrite E0 in E; apply (f_equal (@length Z)) in E; cbn in E; lia. }
      destruct (is_banned b st0 s) eqn:B.
      { cbn [fst] in E. exfalso. revert E. cbn [body]. unfold chkptr. cbn [err heap].
        destruct (nth_error (heap st0) 0) as [[| | | | |[] []|]|]; cbn [errs err]; intro E; rewrite E0 in E; apply (f_equal (@length Z)) in E; cbn in E; lia. }
      destruct (use_name b st0 n s Hm I0 Lk B) as (k & U & Kk & Fk & Ls & Wk).
      cbn [fst snd body] in *. split; [exists k; exact U|]. clear B.
      assert (errs (store l s st0) = errs st0) as ES by apply errs_store.
      assert (chkptr s (store l s st0) = store l s st0) as CE.
      { unfold chkptr in *. destruct (nth_error (heap (store l s st0)) s) as [[| | | | |[] []|]|]; auto.
        exfalso. cbn [errs err] in E. rewrite ES, E0 in E. apply (f_equal (@length Z)) in E. cbn in E. lia. }
      rewrite CE in *. clear E CE.
      assert (inv (store l s st0) /\ length (heap (store l s st0)) = length (heap st) /\ (forall y, ~ owner l y -> nth_error (heap (store l s st0)) y = nth_error (heap st) y) /\
        (forall y, owner l y -> nth_error (heap (store l s st0)) y = option_map (fun q => newbase q s) (nth_error (heap st) y)) /\ fwd (store l s st0) = fwd st /\ kinds_kept (heap st0) (heap (store l s st0))) as (IS & LS & KS & OS & FS & SS).
      { destruct l as [m|o|]; [destruct HL| |cbn [store]; split; [auto|]; split; [auto|]; split; [auto|]; split; [intros y Hy; discriminate Hy|]; split; [auto|apply kinds_refl]].
        cbn [store] in *. destruct (setbase_heap o s st0) as (Q1 & Q2 & Q3). destruct (setbase_rest o s st0) as (A1 & A2 & A3 & A4).
        assert (kinds_kept (heap st0) (heap (setbase o s st0))) as KK by (eapply (kind_newbase _ _ o s); [intros; apply Q2; auto|exact Q3]).
        split; [|split; [congruence|]; split; [intros y N; rewrite Q2 by (intro; subst; apply N; reflexivity); auto|]; split; [|split; [congruence|auto]]].
        - pose proof I0 as (J1 & J2 & J3 & J4 & J5 & J6). unfold inv. rewrite A1, A2, Q1. repeat split; auto.
          + intros y Hy. rewrite Q2 by lia. auto.
          + apply J6; auto.
          + apply KK, J6. auto.
        - intros y Hy. injection Hy as <-. rewrite Q3, O0 by reflexivity. destruct (nth_error (heap st) o); cbn [option_map]; [rewrite newbase_twice|]; reflexivity. }
      assert (kinds_kept (heap st) (heap (store l s st0))) as KK.
      { destruct l as [m|o|]; [destruct HL| |].
        - eapply (kind_newbase _ _ o s); [intros y _ N; apply KS; intro Q; injection Q as Q; congruence|apply OS; reflexivity].
        - intros x kk Hx. rewrite (kind_at_eq (heap st)); [exact Hx|apply KS; intro Q; discriminate Q]. }
      split; [exact IS|]. split; [lia|]. split; [intros; apply KS; auto|]. split; [exact OS|]. split; [|split; [|split; [|split; [exact KK|split; [exact FS|]]]]].
      * (* finite: the owner is pending *)
        specialize (Fk (length (heap st))). revert Fk. apply Fin_keep. intros y Hy Hl. rewrite L0 in Hl. rewrite (KS y), (K0 y); auto.
        all: intro Q; rewrite Q in HL; cbn in HL; lia.
      * intros y Hy. lia.
      * exists k. split; [cbn [kind_of]; destruct U as [-> _]; reflexivity|]. auto.
      * apply (Finite_nz (heap (store l s st0))); [|rewrite (SS _ _ Kk); discriminate]. destruct IS as (_ & _ & _ & P' & _). rewrite P'; auto. pose proof (nth_lt _ _ _ H0). exact H.
    + intros (k & U). destruct (name_usable b st0 n k Hm I0 U) as (s & Lk & B & Kk). rewrite Lk, B. cbn [fst body].
      assert (errs (store l s st0) = errs st) as ES by (rewrite errs_store; auto). unfold chkptr.
      destruct (use_name b st0 n s Hm I0 Lk B) as (k' & U' & Kk' & Fk & Ls & Wk).
      assert (~ waits (nth_error (heap (store l s st0)) s)) as NW.
      { intro W. unfold waits in *.
        assert (nth_error (heap st) s = Some (SPtr 0 false) \/ (owner l s)) as Z.
        { destruct l as [m|o|]; [destruct HL| |].
          - destruct (Nat.eq_dec o s) as [->|N]; [right; reflexivity|]. left. cbn [store] in W. destruct (setbase_heap o s st0) as (Q1 & Q2 & Q3). rewrite Q2 in W by auto.
            rewrite K0 in W; auto. intro Q; injection Q as Q; congruence.
          - left. cbn [store] in W. rewrite K0 in W; auto. intro Q; discriminate Q. }
        destruct Z as [Z|Z].
        - assert (nth_error (heap st0) s = Some (SPtr 0 false)) as Z'.
          { destruct l as [m|o|]; [destruct HL| |]. 
            - destruct (Nat.eq_dec o s) as [->|N]; [rewrite O0 by reflexivity; rewrite Z; reflexivity|]. rewrite K0; auto. intro Q; injection Q as Q; congruence.
            - rewrite K0; auto. intro Q; discriminate Q. }
          destruct (Wk Z') as [ZX ZT]. destruct (HX s ZX) as [HX'|[_ HX']]; [apply HX'; exact Z|discriminate].
        - destruct l as [m|o|]; [destruct HL| |discriminate Z]. injection Z as ->. cbn [store] in W. destruct (setbase_heap s s st0) as (Q1 & Q2 & Q3). rewrite Q3 in W.
          destruct (nth_error (heap st0) s) as [[]|]; cbn [option_map newbase] in W; try discriminate W. injection W as W _.
          revert W. apply (Finite_nz (heap st0)); [|rewrite Kk; discriminate]. destruct I0 as (_ & _ & _ & P' & _). rewrite P'; auto. apply (nth_lt _ _ _ H0). }
      unfold waits in NW. destruct (nth_error (heap (store l s st0)) s) as [[| | | | |[] []|]|]; auto; congruence.
  - (* a structure *)
    pose proof (hdr_heap t l b st EN Hi) as HH. unfold sub. destruct (hdr t l b st) as [st1 r] eqn:EH. cbv zeta in *. cbn [fst snd] in *.
    destruct HH as (-> & L1 & K1 & O1 & N1 & A1 & A2 & A3 & A4). set (s := length (heap st)) in *.
    assert (kinds_kept (heap st) (heap st1)) as KK.
    { intros x k Hx. pose proof (kind_at_lt _ _ _ Hx) as Lx. destruct l as [m|o|]; [destruct HL| |].
      - destruct (Nat.eq_dec x o) as [->|N].
        + unfold kind_at in *. rewrite O1 by reflexivity. destruct (nth_error (heap st) o) as [[]|]; cbn in *; auto.
        + rewrite (kind_at_eq (heap st)); [exact Hx|]. apply K1; [auto|intro Q; injection Q as Q; congruence].
      - rewrite (kind_at_eq (heap st)); [exact Hx|]. apply K1; [auto|intro Q; discriminate Q]. }
    assert (inv st1) as I1'.
    { unfold inv. rewrite A1, A2, L1. repeat split; auto; try (unfold s in *; lia).
      - intros y Hy. rewrite K1; auto; [unfold s; lia|]. intro Q. rewrite Q in HL. lia.
      - apply IX; auto.
      - apply KK, IX. auto. }
    assert (bodypre t s st1) as PRE.
    { split; [exact EN|]. split; [exact I1'|]. split; [exact L1|]. split; [unfold s; lia|]. split; [exact N1|].
      intros x Hx. right. intro W. unfold waits in W. destruct (IX x Hx) as [Lx Kx]. pose proof (kind_at_lt _ _ _ Kx) as Lx2.
      destruct (HX x Hx) as [HX'|[HX' _]].
      - apply HX'. unfold waits. destruct l as [m|o|]; [destruct HL| |].
        + destruct (Nat.eq_dec x o) as [->|N]; [|rewrite <- W; symmetry; apply K1; auto; intro Q; injection Q as Q; congruence].
          rewrite O1 in W by reflexivity. destruct (nth_error (heap st) o) as [[]|]; cbn [option_map newbase] in W; try discriminate W. injection W as W _. unfold s in W. lia.
        + rewrite <- W. symmetry. apply K1; auto. intro Q; discriminate Q.
      - rewrite O1 in W by auto. destruct (nth_error (heap st) x) as [[]|]; cbn [option_map newbase] in W; try discriminate W. injection W as W _. unfold s in W. lia. }
    destruct (HB b s st1 Hm PRE) as (HB1 & HB2 & HB3). pose proof (more_body t s b st1) as M. pose proof (more_chkptr s (body t s b st1)) as M2.
    assert (forall k, kind_of g t = Some k -> kind_at (heap st1) s = Some k) as KI.
    { intros k Hk. rewrite <- Hk. apply init_kind; auto. }
    split.
    + intro E. destruct (more_squeeze st1 (body t s b st1) (chkptr s (body t s b st1)) M M2) as [E1 E2]; [congruence|].
      destruct (HB1 E1) as [[LT P]|(n & -> & _ & _ & Q)].
      2:{ exfalso. rewrite Q in E2. unfold chkptr in E2. cbn [heap] in E2. rewrite N1 in E2. cbn [init errs err] in E2. apply (f_equal (@length Z)) in E2. cbn in E2. lia. }
      destruct P as (P1 & P2 & P3 & (q & P4 & P5 & P6 & P7) & P8 & P9 & P10 & P11).
      assert (chkptr s (body t s b st1) = body t s b st1) as CE.
      { unfold chkptr, waits in *. destruct (nth_error (heap (body t s b st1)) s) as [[| | | | |[] []|]|]; auto; congruence. }
      rewrite CE. set (st' := body t s b st1) in *. split; [exact LT|].
      assert (Fin (assumed b) lo s (heap st') s) as FS.
      { eapply fin_node; eauto. intros y Hy. apply (Fin_weak (assumed b) _ lo (S s)); auto. }
      split; [exact P1|]. split; [lia|]. split; [intros y Hy N; rewrite P3 by lia; auto|]. split.
      { intros y Hy. rewrite P3; [apply O1; auto| |]. 
        - destruct l as [m|o|]; [destruct HL| |discriminate Hy]. injection Hy as <-. unfold s in *. lia.
        - destruct l as [m|o|]; [destruct HL| |discriminate Hy]. injection Hy as <-. unfold s in *. lia. }
      split; [exact FS|]. split; [|split; [|split; [eapply kinds_trans; eauto|split; [congruence|]]]].
      * intros y Hy. destruct (Nat.eq_dec y s) as [->|N].
        -- split; [|eauto]. apply (Fin_weak (assumed b) _ lo s); auto. apply assumed_X.
        -- destruct (P8 y ltac:(lia)) as [F1 F2]. split; auto. apply (Fin_weak X _ lo (S s)); auto.
      * destruct (init_kind t EN) as [IK _]. destruct (kind_of g t) as [k|] eqn:Ek; [|congruence]. exists k. split; auto.
      * pose proof (nth_lt _ _ _ H0). unfold s, lo in *. lia.
    + intro LT. pose proof (HB2 LT) as E1. destruct (HB1 E1) as [[_ P]|(n & -> & Kn & _)].
      * destruct P as (_ & _ & _ & _ & _ & _ & _ & P11). unfold chkptr, waits in *.
        assert (errs (body t s b st1) = errs st) as E2 by congruence.
        destruct (nth_error (heap (body t s b st1)) s) as [[| | | | |[] []|]|]; auto; congruence.
      * exfalso. cbn [legal_type] in LT. destruct LT as [(k & U & _) _]. congruence.
Qed.

Hypothesis undf : nth_error hb 0 = Some SUndef.

Lemma more_fields : forall s b fs st, more st (fields s b fs st).
Proof.
  intros s b fs. induction fs as [|f fs IH]; intro st; [apply more_refl|].
  cbn [fields]. pose proof (more_sub f LVar b st (more_body f)) as M. destruct (hdr f LVar b st) as [st1 r]. eapply more_trans; [exact M|].
  destruct (is_dyn (chkptr r (body f r b st1)) r).
  + eapply more_trans; [apply (more_err 88)|]. eapply more_trans; [|apply IH]. apply more_eq, errs_addf.
  + eapply more_trans; [|apply IH]. apply more_eq, errs_addf.
Qed.
Lemma more_params : forall s fs st, more st (params s fs st).
Proof.
  intros s fs. induction fs as [|f fs IH]; intro st; [apply more_refl|].
  cbn [params]. pose proof (more_sub f LVar None st (more_body f)) as M. destruct (hdr f LVar None st) as [st1 r]. eapply more_trans; [exact M|].
  eapply more_trans; [|apply IH]. apply more_eq, errs_addf.
Qed.
Lemma is_dyn_kind : forall st r, is_dyn st r = true <-> kind_at (heap st) r = Some KDyn.
Proof. intros. unfold is_dyn, kind_at. destruct (nth_error (heap st) r) as [[]|]; split; congruence. Qed.
Lemma is_rec_kind : forall st r, is_rec st r = true <-> kind_at (heap st) r = Some KRec.
Proof. intros. unfold is_rec, kind_at. destruct (nth_error (heap st) r) as [[]|]; split; congruence. Qed.
Lemma is_comp_kind : forall st r, is_comp st r = true <-> exists k, kind_at (heap st) r = Some k /\ composite k.
Proof.
  intros. unfold is_comp, kind_at, composite. destruct (nth_error (heap st) r) as [[]|]; split; intro H; try discriminate H; try reflexivity;
    try (eexists; split; [reflexivity|discriminate]); destruct H as (k & E & N); try discriminate E; injection E as <-; congruence.
Qed.
Lemma bodypost_start : forall t s b st, bodypre t s st -> Shaped (heap st) (init t) -> (forall y, In y (parts (init t)) -> False) -> init t <> SPtr 0 false -> bodypost s b st st.
Proof.
  intros t s b st (EN & I & L & Ls & N & HX) Sh Pa Np. split; [exact I|]. split; [lia|]. split; [auto|]. split.
  { exists (init t). split; [exact N|]. split; [destruct t; try discriminate; discriminate EN|]. split; [exact Sh|]. intros y Hy. destruct (Pa y Hy). }
  split; [intros y Hy; lia|]. split; [apply kinds_refl|]. split; [reflexivity|]. unfold waits. rewrite N. congruence.
Qed.
Lemma bodypost_grow : forall s b b' st0 st st2 st3 r f q q', lo <= s -> s < length (heap st0) -> bodypost s b st0 st -> subpost f LVar b' st st2 r ->
  nth_error (heap st) s = Some q -> loc st3 = loc st2 -> out st3 = out st2 -> fwd st3 = fwd st2 -> length (heap st3) = length (heap st2) ->
  (forall y, y <> s -> nth_error (heap st3) y = nth_error (heap st2) y) -> nth_error (heap st3) s = Some q' -> q' <> SUndef ->
  kind_at (heap st3) s = kind_at (heap st2) s -> Shaped (heap st2) q' -> (forall y, In y (parts q') -> In y (parts q) \/ (y = r /\ b' = b)) -> q' <> SPtr 0 false ->
  bodypost s b st0 st3.
Proof.
  intros s b b' st0 st st2 st3 r f q q' Ls Ls0 (P1 & P2 & P3 & (q0 & P4 & P5 & P6 & P7) & P8 & P9 & P10 & P11) (R1 & R2 & R3 & R4 & R5 & R6 & R7 & R8 & R9 & R10)
    Eq A1 A2 A3 L3 K3 N3 U3 KA3 Sh3 Pa3 W3.
  rewrite Eq in P4. injection P4 as <-.
  assert (forall y, y < length (heap st) -> nth_error (heap st2) y = nth_error (heap st) y) as RK by (intros; apply R3; auto; intro Q; discriminate Q).
  assert (kinds_kept (heap st2) (heap st3)) as K23.
  { intros x k Hx. destruct (Nat.eq_dec x s) as [->|N]; [congruence|]. rewrite (kind_at_eq (heap st2)); auto. }
  assert (forall A y, Fin A lo (S s) (heap st) y -> Fin A lo (S s) (heap st3) y) as FK.
  { intros A y. apply Fin_keep. intros z Hz Lz. rewrite K3, RK; auto. lia. }
  assert (forall A hi y, hi >= S s -> Fin A lo hi (heap st2) y -> Fin A lo (S s) (heap st3) y) as FK2.
  { intros A hi y Hh HF. apply (Fin_weak A _ lo hi); auto. revert HF. apply Fin_keep. intros z Hz Lz. apply K3. lia. }
  assert (kinds_kept (heap st) (heap st3)) as K13 by (eapply kinds_trans; eauto).
  split.
  { pose proof R1 as (J1 & J2 & J3 & J4 & J5 & J6). unfold inv. rewrite A1, A2, L3. repeat split; auto.
    - intros y Hy. rewrite K3 by lia. auto.
    - apply J6; auto.
    - apply K23, J6; auto. }
  split; [lia|]. split; [intros y Hy N; rewrite K3, RK, P3; auto; lia|]. split.
  { exists q'. split; [exact N3|]. split; [exact U3|]. split; [apply (Shaped_kept (heap st2)); auto|]. intros y Hy. destruct (Pa3 y Hy) as [Hq|[-> ->]]; auto.
    apply (FK2 _ (length (heap st))); auto. lia. }
  split.
  { intros y Hy. destruct (le_lt_dec (length (heap st)) y) as [G|L].
    - destruct (R6 y ltac:(lia)) as [F1 (qy & Q1 & Q2 & Q3)]. split; [apply (FK2 _ (length (heap st))); auto; lia|]. exists qy. rewrite K3 by lia. split; auto. split; auto. apply (Shaped_kept (heap st2)); auto.
    - destruct (P8 y ltac:(lia)) as [F1 (qy & Q1 & Q2 & Q3)]. split; auto. exists qy. rewrite K3, RK by lia. split; auto. split; auto. apply (Shaped_kept (heap st)); auto. }
  split; [eapply kinds_trans; [exact P9|]; exact K13|]. split; [congruence|]. unfold waits. rewrite N3. congruence.
Qed.

Lemma fields_ok : forall b s st0, mode b -> lo <= s -> s < length (heap st0) -> forall fs, Forall body_ok fs -> forall st bo fl,
  bodypost s b st0 st -> nth_error (heap st) s = Some (SRec bo fl) -> (forall x, X = Some x -> ~ waits (nth_error (heap st) x)) ->
  (errs (fields s b fs st) = errs st -> Forall (fun f => legal_type g b f /\ kind_of g f <> Some KDyn) fs /\ bodypost s b st0 (fields s b fs st)) /\
  (Forall (fun f => legal_type g b f /\ kind_of g f <> Some KDyn) fs -> errs (fields s b fs st) = errs st).
Proof.
  intros b s st0 Hm Ls Ls0 fs HF. induction HF as [|f fs Hf _ IH]; intros st bo fl BP Ns HX; [split; auto|].
  assert (subpre f LVar st) as PRE.
  { split; [apply BP|]. split; [exact undf|]. split; [exact I|]. intros x Hx. left. auto. }
  destruct (sub_ok f Hf LVar b st Hm PRE) as [SA SB].
  assert (fields s b (f :: fs) st = let '(st2, r) := sub f LVar b st in let '(st, r) := if is_dyn st2 r then (err 88 st2, 0) else (st2, r) in fields s b fs (addf s r st)) as EQ.
  { cbn [fields]. unfold sub. destruct (hdr f LVar b st). reflexivity. }
  assert (more st (fst (sub f LVar b st))) as M1.
  { pose proof (more_sub f LVar b st (more_body f)) as M. unfold sub. destruct (hdr f LVar b st). exact M. }
  rewrite EQ. clear EQ. destruct (sub f LVar b st) as [st2 r]. cbn [fst snd] in *.
  destruct (is_dyn st2 r) eqn:D.
  - assert (more (err 88 st2) (fields s b fs (addf s 0 (err 88 st2)))) as M by (eapply more_trans; [apply more_eq, errs_addf|apply more_fields]).
    split.
    + intro E. exfalso. destruct (more_squeeze st (err 88 st2) _ (more_trans _ _ _ M1 (more_err 88 st2)) M E) as [E1 _]. revert E1. apply err_ne. exact M1.
    + intro F. exfalso. apply Forall_cons_iff in F. destruct F as [[F1 F2] _]. pose proof (SB F1) as E. destruct (SA E) as [_ SP].
      destruct SP as (_ & _ & _ & _ & _ & _ & (k & K1 & K2) & _). apply is_dyn_kind in D. congruence.
  - assert (more (addf s r st2) (fields s b fs (addf s r st2))) as M by apply more_fields.
    assert (errs st2 = errs st -> legal_type g b f /\ kind_of g f <> Some KDyn /\ bodypost s b st0 (addf s r st2) /\ nth_error (heap (addf s r st2)) s = Some (SRec bo (fl ++ [r])) /\
        forall x, X = Some x -> ~ waits (nth_error (heap (addf s r st2)) x)) as STEP.
    { intro E. destruct (SA E) as [LT SP]. pose proof SP as (R1 & R2 & R3 & R4 & R5 & R6 & (k & K1 & K2) & R8 & R9 & R10).
      assert (nth_error (heap st2) s = Some (SRec bo fl)) as N2. { rewrite R3; auto. eapply nth_lt; eauto. intro Q; discriminate Q. }
      assert (k <> KDyn) as Nk. { intros ->. apply is_dyn_kind in K2. congruence. }
      destruct (addf_heap s r st2) as (L3 & K3 & A1 & A2 & A3).
      assert (nth_error (heap (addf s r st2)) s = Some (SRec bo (fl ++ [r]))) as N3.
      { unfold addf. rewrite N2. cbn [with_heap heap]. apply updn_same. eapply nth_lt; eauto. }
      split; [auto|]. split; [congruence|]. split; [|split; [exact N3|]].
      - eapply (bodypost_grow s b b st0 st st2 (addf s r st2) r f (SRec bo fl) (SRec bo (fl ++ [r]))); eauto; try discriminate.
        + unfold kind_at. rewrite N3, N2. reflexivity.
        + destruct BP as (_ & _ & _ & (q & Q1 & _ & Q3 & _) & _). rewrite Ns in Q1. injection Q1 as <-.
          apply (Shaped_kept _ _ _ R8) in Q3. destruct Q3 as [Q3 Q4]. split; auto. apply Forall_app. split; auto. constructor; [|constructor]. split; congruence.
        + intros y Hy. destruct bo as [x|]; cbn [parts] in *.
          * destruct Hy as [->|Hy]; [left; left; auto|]. apply in_app_iff in Hy. destruct Hy as [Hy|[->|[]]]; [left; right; auto|right; auto].
          * apply in_app_iff in Hy. destruct Hy as [Hy|[->|[]]]; [left; auto|right; auto].
      - intros x Hx W. unfold waits in W. destruct (Nat.eq_dec x s) as [->|N]; [rewrite N3 in W; discriminate W|].
        rewrite K3 in W by auto. apply (HX x Hx). unfold waits. rewrite <- W. symmetry. apply R3; [|intro Q; discriminate Q].
        destruct BP as (BI & _). destruct BI as (_ & _ & _ & _ & _ & BX). destruct (BX x Hx) as [_ KX]. eapply kind_at_lt; eauto. }
    split.
    + intro E. destruct (more_squeeze st st2 (fields s b fs (addf s r st2)) M1) as [E1 E2].
      { eapply more_trans; [apply more_eq, errs_addf|exact M]. }
      { exact E. }
      destruct (STEP E1) as (LT & NK & BP' & N3 & HX'). destruct (IH _ _ _ BP' N3 HX') as [IA _]. destruct IA as [IA1 IA2]; [rewrite errs_addf; auto|].
      split; auto.
    + intro F. apply Forall_cons_iff in F. destruct F as [[F1 F2] F3]. pose proof (SB F1) as E1. destruct (STEP E1) as (LT & NK & BP' & N3 & HX').
      destruct (IH _ _ _ BP' N3 HX') as [_ IB]. rewrite (IB F3), errs_addf. auto.
Qed.

Lemma params_ok : forall b s st0, lo <= s -> s < length (heap st0) -> forall fs, Forall body_ok fs -> forall st pl re,
  bodypost s b st0 st -> nth_error (heap st) s = Some (SProc pl re) -> (forall x, X = Some x -> ~ waits (nth_error (heap st) x)) ->
  (errs (params s fs st) = errs st -> Forall (legal_type g None) fs /\ bodypost s b st0 (params s fs st) /\ exists pl', nth_error (heap (params s fs st)) s = Some (SProc pl' re)) /\
  (Forall (legal_type g None) fs -> errs (params s fs st) = errs st).
Proof.
  intros b s st0 Ls Ls0 fs HF. induction HF as [|f fs Hf _ IH]; intros st pl re BP Ns HX; [split; [split; [auto|]; split; [auto|]; exists pl; auto|auto]|].
  assert (mode None) as Hm by (right; reflexivity).
  assert (subpre f LVar st) as PRE.
  { split; [apply BP|]. split; [exact undf|]. split; [exact I|]. intros x Hx. left. auto. }
  destruct (sub_ok f Hf LVar None st Hm PRE) as [SA SB].
  assert (params s (f :: fs) st = let '(st2, r) := sub f LVar None st in params s fs (addf s r st2)) as EQ.
  { cbn [params]. unfold sub. destruct (hdr f LVar None st). reflexivity. }
  assert (more st (fst (sub f LVar None st))) as M1.
  { pose proof (more_sub f LVar None st (more_body f)) as M. unfold sub. destruct (hdr f LVar None st). exact M. }
  rewrite EQ. clear EQ. destruct (sub f LVar None st) as [st2 r]. cbn [fst snd] in *.
  assert (more (addf s r st2) (params s fs (addf s r st2))) as M by apply more_params.
  assert (errs st2 = errs st -> legal_type g None f /\ bodypost s b st0 (addf s r st2) /\ nth_error (heap (addf s r st2)) s = Some (SProc (pl ++ [r]) re) /\
      forall x, X = Some x -> ~ waits (nth_error (heap (addf s r st2)) x)) as STEP.
  { intro E. destruct (SA E) as [LT SP]. pose proof SP as (R1 & R2 & R3 & R4 & R5 & R6 & (k & K1 & K2) & R8 & R9 & R10).
    assert (nth_error (heap st2) s = Some (SProc pl re)) as N2. { rewrite R3; auto. eapply nth_lt; eauto. intro Q; discriminate Q. }
    destruct (addf_heap s r st2) as (L3 & K3 & A1 & A2 & A3).
    assert (nth_error (heap (addf s r st2)) s = Some (SProc (pl ++ [r]) re)) as N3.
    { unfold addf. rewrite N2. cbn [with_heap heap]. apply updn_same. eapply nth_lt; eauto. }
    split; [auto|]. split; [|split; [exact N3|]].
    - eapply (bodypost_grow s b None st0 st st2 (addf s r st2) r f (SProc pl re) (SProc (pl ++ [r]) re)); eauto; try discriminate.
      + unfold kind_at. rewrite N3, N2. reflexivity.
      + destruct BP as (_ & _ & _ & (q & Q1 & _ & Q3 & _) & _). rewrite Ns in Q1. injection Q1 as <-.
        apply (Shaped_kept _ _ _ R8) in Q3. destruct Q3 as [Q3 Q4]. split; auto. apply Forall_app. split; auto. constructor; [|constructor]. unfold is_type. congruence.
    - intros x Hx W. unfold waits in W. destruct (Nat.eq_dec x s) as [->|N]; [rewrite N3 in W; discriminate W|].
      rewrite K3 in W by auto. apply (HX x Hx). unfold waits. rewrite <- W. symmetry. apply R3; [|intro Q; discriminate Q].
      destruct BP as (BI & _). destruct BI as (_ & _ & _ & _ & _ & BX). destruct (BX x Hx) as [_ KX]. eapply kind_at_lt; eauto. }
  split.
  - intro E. destruct (more_squeeze st st2 (params s fs (addf s r st2)) M1) as [E1 E2].
    { eapply more_trans; [apply more_eq, errs_addf|exact M]. }
    { exact E. }
    destruct (STEP E1) as (LT & BP' & N3 & HX'). destruct (IH _ _ _ BP' N3 HX') as [IA _]. destruct IA as [IA1 IA2]; [rewrite errs_addf; auto|].
    split; auto.
  - intro F. apply Forall_cons_iff in F. destruct F as [F1 F3]. pose proof (SB F1) as E1. destruct (STEP E1) as (LT & BP' & N3 & HX').
    destruct (IH _ _ _ BP' N3 HX') as [_ IB]. rewrite (IB F3), errs_addf. auto.
Qed.
(** Replacing the structure itself, when nothing else changes. *)
Lemma bodypost_same : forall s b st0 st st3 q q', lo <= s -> s < length (heap st0) -> bodypost s b st0 st -> nth_error (heap st) s = Some q ->
  st3 = with_heap (updn (heap st) s q') st -> q' <> SUndef -> (forall h, nth_error h s = Some q' -> kind_at h s = kind_at (heap st) s) -> Shaped (heap st) q' ->
  (forall y, In y (parts q') -> In y (parts q) \/ Fin (assumed b) lo (S s) (heap st) y) -> q' <> SPtr 0 false -> bodypost s b st0 st3.
Proof.
  intros s b st0 st st3 q q' Ls Ls0 (P1 & P2 & P3 & (q0 & P4 & P5 & P6 & P7) & P8 & P9 & P10 & P11) Eq -> U3 KA Sh Pa W.
  rewrite Eq in P4. injection P4 as <-. pose proof (nth_lt _ _ _ Eq) as L.
  assert (nth_error (updn (heap st) s q') s = Some q') as N3 by (apply updn_same; auto).
  assert (forall y, y <> s -> nth_error (updn (heap st) s q') y = nth_error (heap st) y) as K3 by (intros; apply updn_other; auto).
  assert (kinds_kept (heap st) (updn (heap st) s q')) as KK.
  { intros x k Hx. destruct (Nat.eq_dec x s) as [->|N]; [rewrite (KA _ N3); auto|]. rewrite (kind_at_eq (heap st)); auto. }
  assert (forall A y, Fin A lo (S s) (heap st) y -> Fin A lo (S s) (updn (heap st) s q') y) as FK.
  { intros A y. apply Fin_keep. intros z Hz Lz. apply K3. lia. }
  unfold bodypost, rest, inv. cbn [with_heap heap loc out fwd]. rewrite updn_length.
  pose proof P1 as (J1 & J2 & J3 & J4 & J5 & J6).
  split. { repeat split; auto. - intros y Hy. rewrite K3 by lia. auto. - apply J6; auto. - apply KK, J6; auto. }
  split; [auto|]. split; [intros y Hy N; rewrite K3; auto|]. split.
  { exists q'. split; [exact N3|]. split; [exact U3|]. split; [apply (Shaped_kept (heap st)); auto|]. intros y Hy. destruct (Pa y Hy) as [Hq|Hq]; auto. }
  split.
  { intros y Hy. destruct (P8 y Hy) as [F1 (qy & Q1 & Q2 & Q3)]. split; auto. exists qy. rewrite K3 by lia. split; auto. split; auto. apply (Shaped_kept (heap st)); auto. }
  split; [eapply kinds_trans; eauto|]. split; [auto|]. unfold waits. rewrite N3. congruence.
Qed.
Lemma known_none : forall st n, inv st -> lookup st n = None <-> known g n = None.
Proof.
  intros st n Iv. rewrite (inv_lookup st n Iv). pose proof (entries n) as E. unfold entry in E.
  destruct (find n) as [[]|]; destruct (known g n) as [[]|]; split; try congruence; tauto.
Qed.

Lemma all_bodies : forall t, body_ok t.
Proof.
  induction t as [n|t IH|t IH|bo fs IH|t IH|ps re IH] using texp_ind2; intros b s st Hm PRE; pose proof PRE as (EN & Iv & L & Ls & N & HX).
  - discriminate EN.
  - (* array *)
    assert (subpre t (LBase s) st) as SP.
    { split; [exact Iv|]. split; [exact undf|]. split; [lia|]. intros x Hx. left. destruct (HX x Hx) as [->|W]; auto. unfold waits. rewrite N. discriminate. }
    destruct (sub_ok t IH (LBase s) b st Hm SP) as [SA SB].
    assert (more st (fst (sub t (LBase s) b st))) as M1.
    { pose proof (more_sub t (LBase s) b st (more_body t)) as M. unfold sub. destruct (hdr t (LBase s) b st). exact M. }
    assert (body (TArr t) s b st = let '(st, r) := sub t (LBase s) b st in if is_dyn st r then err 88 (setbase s 0 st) else st) as EQ.
    { cbn [body]. unfold sub. destruct (hdr t (LBase s) b st). reflexivity. }
    rewrite EQ. clear EQ. destruct (sub t (LBase s) b st) as [st2 r]. cbn [fst snd] in *.
    destruct (is_dyn st2 r) eqn:D.
    + split; [|split].
      * intro E. exfalso. revert E. apply err_ne. eapply more_trans; [exact M1|]. apply more_eq, errs_setbase.
      * intros [LT NK]. exfalso. pose proof (SB LT) as E. destruct (SA E) as [_ (_ & _ & _ & _ & _ & _ & (k & K1 & K2) & _)]. apply is_dyn_kind in D. congruence.
      * intros (n & Q & _). discriminate Q.
    + split; [|split].
      * intro E. left. destruct (SA E) as [LT (R1 & R2 & R3 & R4 & R5 & R6 & (k & K1 & K2) & R8 & R9 & R10)].
        assert (k <> KDyn) as Nk. { intros ->. apply is_dyn_kind in K2. congruence. }
        split; [split; [auto|congruence]|]. rewrite L in *. assert (nth_error (heap st2) s = Some (SArr r)) as N2 by (rewrite R4 by reflexivity; rewrite N; reflexivity).
        split; [exact R1|]. split; [lia|]. split; [intros y Hy Ny; apply R3; [lia|intro Q; injection Q as Q; congruence]|]. split.
        { exists (SArr r). split; [exact N2|]. split; [discriminate|]. split; [split; congruence|]. intros y [<-|[]]. exact R5. }
        split; [exact R6|]. split; [exact R8|]. split; [exact R9|]. unfold waits. rewrite N2. discriminate.
      * intros [LT NK]. auto.
      * intros (n & Q & _). discriminate Q.
  - (* open array *)
    assert (subpre t (LBase s) st) as SP.
    { split; [exact Iv|]. split; [exact undf|]. split; [lia|]. intros x Hx. left. destruct (HX x Hx) as [->|W]; auto. unfold waits. rewrite N. discriminate. }
    destruct (sub_ok t IH (LBase s) b st Hm SP) as [SA SB].
    assert (body (TDyn t) s b st = fst (sub t (LBase s) b st)) as EQ.
    { cbn [body]. unfold sub. destruct (hdr t (LBase s) b st). reflexivity. }
    rewrite EQ. clear EQ. destruct (sub t (LBase s) b st) as [st2 r]. cbn [fst snd] in *.
    split; [|split].
    + intro E. left. destruct (SA E) as [LT (R1 & R2 & R3 & R4 & R5 & R6 & (k & K1 & K2) & R8 & R9 & R10)].
      split; [auto|]. rewrite L in *. assert (nth_error (heap st2) s = Some (SDyn r)) as N2 by (rewrite R4 by reflexivity; rewrite N; reflexivity).
      split; [exact R1|]. split; [lia|]. split; [intros y Hy Ny; apply R3; [lia|intro Q; injection Q as Q; congruence]|]. split.
      { exists (SDyn r). split; [exact N2|]. split; [discriminate|]. split; [unfold Shaped, is_type; congruence|]. intros y [<-|[]]. exact R5. }
      split; [exact R6|]. split; [exact R8|]. split; [exact R9|]. unfold waits. rewrite N2. discriminate.
    + intros LT. auto.
    + intros (n & Q & _). discriminate Q.
  - (* record *)
    rewrite body_rec, legal_rec. pose proof (more_rec_base bo s b st) as M1.
    assert (bodypost s b st st) as B0. { eapply bodypost_start; eauto; cbn; auto; try discriminate. split; [discriminate|constructor]. }
    assert ((errs (rec_base bo s b st) = errs st -> (forall n, bo = Some n -> usable g b n KRec) /\ bodypost s b st (rec_base bo s b st) /\ exists bb, nth_error (heap (rec_base bo s b st)) s = Some (SRec bb []) /\
        forall x, X = Some x -> ~ waits (nth_error (heap (rec_base bo s b st)) x)) /\ ((forall n, bo = Some n -> usable g b n KRec) -> errs (rec_base bo s b st) = errs st)) as [RA RB].
    { assert (forall x, X = Some x -> ~ waits (nth_error (heap st) x)) as HX'.
      { intros x Hx. destruct (HX x Hx) as [->|W]; auto. unfold waits. rewrite N. discriminate. }
      destruct bo as [n|]; cbn [rec_base].
      2:{ split; auto. intros _. split; [intros n Q; discriminate Q|]. split; auto. exists None. split; [exact N|auto]. }
      split.
      - intro E. destruct (lookup st n) as [[x|]|] eqn:Lk; try (exfalso; apply (f_equal (@length Z)) in E; cbn in E; lia).
        destruct (is_rec st x) eqn:R; [|exfalso; apply (f_equal (@length Z)) in E; cbn in E; lia].
        destruct (is_banned b st x) eqn:B; [exfalso; apply (f_equal (@length Z)) in E; cbn in E; lia|]. clear E.
        destruct (use_name b st n x Hm Iv Lk B) as (k & U & Kk & Fk & Lx & Wx). apply is_rec_kind in R.
        assert (k = KRec) as -> by congruence. split; [intros m Q; injection Q as <-; exact U|]. rewrite N. cbn [init]. split.
        + eapply (bodypost_same s b st st _ (SRec None []) (SRec (Some x) [])); eauto; try discriminate; try lia.
          * intros h Hh. unfold kind_at. rewrite Hh, N. reflexivity.
          * split; [intros y Q; injection Q as <-; exact R|constructor].
          * intros y [<-|[]]. right. apply Fk.
        + exists (Some x). cbn [with_heap heap]. split; [apply updn_same; lia|]. intros y Hy. destruct (Nat.eq_dec y s) as [->|Ny].
          * rewrite updn_same by lia. unfold waits. discriminate.
          * rewrite updn_other by auto. auto.
      - intro U. destruct (name_usable b st n KRec Hm Iv (U n eq_refl)) as (x & Lk & B & Kk). rewrite Lk, B. apply is_rec_kind in Kk. rewrite Kk, N. reflexivity. }
    assert (more (rec_base bo s b st) (fields s b fs (rec_base bo s b st))) as M by apply more_fields.
    split; [|split].
    + intro E. destruct (more_squeeze _ _ _ M1 M E) as [E1 E2]. destruct (RA E1) as (U & BP & bb & Nb & HX').
      destruct (fields_ok b s st Hm Ls ltac:(lia) fs IH _ bb [] BP Nb HX') as [FA _]. destruct (FA E2) as [F1 F2]. left. auto.
    + intros [U F]. pose proof (RB U) as E1. destruct (RA E1) as (_ & BP & bb & Nb & HX').
      destruct (fields_ok b s st Hm Ls ltac:(lia) fs IH _ bb [] BP Nb HX') as [_ FB]. rewrite (FB F). auto.
    + intros (n & Q & _). discriminate Q.
  - (* pointer *)
    destruct (is_name t) eqn:ET.
    + destruct t as [n| | | | |]; try discriminate ET. change (body (TPtr (TName n)) s b st) with (ptr_name n s st). unfold ptr_name.
      assert (mode None) as Hm0 by (right; reflexivity). pose proof (known_none st n Iv) as KN.
      destruct (lookup st n) as [[x|]|] eqn:Lk.
      * destruct (is_comp st x) eqn:C.
        -- destruct (use_name None st n x Hm0 Iv Lk eq_refl) as (k & U & Kk & Fk & Lx & Wx).
           apply is_comp_kind in C. destruct C as (k' & C1 & C2). assert (k' = k) as -> by congruence.
           split; [|split].
           ++ intros _. left. split; [split; [exists k; exact U|exists k; split; auto; cbn [kind_of]; destruct U as [-> _]; reflexivity]|].
              unfold setbase. rewrite N. cbn [init].
              assert (x <> 0) as Nx. { apply (Finite_nz (heap st)); [|congruence]. destruct Iv as (_ & _ & _ & P & _). rewrite P; [exact undf|]. apply (nth_lt _ _ _ undf). }
              set (h3 := updn (heap st) s (SPtr x false)).
              assert (nth_error h3 s = Some (SPtr x false)) as N3 by (apply updn_same; lia).
              assert (forall y, y <> s -> nth_error h3 y = nth_error (heap st) y) as K3 by (intros; apply updn_other; auto).
              assert (length h3 = S s) as L3 by (unfold h3; rewrite updn_length; auto).
              assert (kinds_kept (heap st) h3) as KK.
              { intros y ky Hy. destruct (Nat.eq_dec y s) as [->|Ny]; [unfold kind_at in *; rewrite N in Hy; rewrite N3; exact Hy|]. rewrite (kind_at_eq (heap st)); auto. }
              pose proof Iv as (J1 & J2 & J3 & J4 & J5 & J6).
              split; [unfold inv; cbn [with_heap heap loc out]; rewrite L3; repeat split; auto; [intros y Hy; rewrite K3 by lia; auto|apply J6; auto|apply KK, J6; auto]|].
              cbn [with_heap heap fwd]. rewrite L3. split; [lia|]. split; [intros; apply K3; auto|]. split.
              { exists (SPtr x false). split; [exact N3|]. split; [discriminate|]. split; [exists k; split; auto|]. intros y []. }
              split; [intros y Hy; lia|]. split; [exact KK|]. split; [reflexivity|]. unfold waits. rewrite N3. intro Q. injection Q as Q. congruence.
           ++ intros _. apply errs_setbase.
           ++ intros (m & Q & Km & _). injection Q as <-. apply KN in Km. discriminate Km.
        -- split; [|split].
           ++ intro E. exfalso. apply (f_equal (@length Z)) in E. cbn in E. lia.
           ++ intros [(k & U) (k' & K1 & K2)]. exfalso. destruct (name_usable None st n k Hm0 Iv U) as (x' & Lk' & _ & Kk). rewrite Lk in Lk'. injection Lk' as <-.
              cbn [kind_of] in K1. destruct U as [U _]. rewrite U in K1. injection K1 as <-.
              assert (is_comp st x = true) by (apply is_comp_kind; exists k; auto). congruence.
           ++ intros (m & Q & Km & _). injection Q as <-. apply KN in Km. discriminate Km.
      * split; [|split].
        -- intro E. exfalso. apply (f_equal (@length Z)) in E. cbn in E. lia.
        -- intros [(k & U) _]. exfalso. destruct (name_usable None st n k Hm0 Iv U) as (x' & Lk' & _). congruence.
        -- intros (m & Q & Km & _). injection Q as <-. apply KN in Km. discriminate Km.
      * destruct (length (fwd st) <? 64) eqn:F.
        -- apply Nat.ltb_lt in F. split; [|split].
           ++ intros _. right. exists n. split; [reflexivity|]. split; [apply KN; reflexivity|]. auto.
           ++ reflexivity.
           ++ reflexivity.
        -- apply Nat.ltb_ge in F. split; [|split].
           ++ intro E. exfalso. apply (f_equal (@length Z)) in E. cbn in E. lia.
           ++ intros [(k & [U _]) _]. exfalso. assert (known g n = None) by (apply KN; reflexivity). congruence.
           ++ intros (m & _ & _ & Q). exfalso. lia.
    + assert (mode None) as Hm0 by (right; reflexivity).
      assert (subpre t (LBase s) st) as SP.
      { split; [exact Iv|]. split; [exact undf|]. split; [lia|]. intros x Hx. destruct (HX x Hx) as [->|W]; [right; split; [reflexivity|exact ET]|left; exact W]. }
      destruct (sub_ok t IH (LBase s) None st Hm0 SP) as [SA SB].
      assert (more st (fst (sub t (LBase s) None st))) as M1.
      { pose proof (more_sub t (LBase s) None st (more_body t)) as M. unfold sub. destruct (hdr t (LBase s) None st). exact M. }
      assert (body (TPtr t) s b st = let '(st, r) := sub t (LBase s) None st in if is_comp st r then st else err 57 (setbase s 0 st)) as EQ.
      { unfold sub. destruct t; try discriminate ET; cbn [body]; destruct (hdr _ (LBase s) None st); reflexivity. }
      rewrite EQ. clear EQ. destruct (sub t (LBase s) None st) as [st2 r]. cbn [fst snd] in *.
      destruct (is_comp st2 r) eqn:C.
      * split; [|split].
        -- intro E. left. destruct (SA E) as [LT (R1 & R2 & R3 & R4 & R5 & R6 & (k & K1 & K2) & R8 & R9 & R10)].
           apply is_comp_kind in C. destruct C as (k' & C1 & C2). assert (k' = k) as -> by congruence.
           split; [split; [auto|exists k; auto]|]. rewrite L in *. assert (nth_error (heap st2) s = Some (SPtr r false)) as N2 by (rewrite R4 by reflexivity; rewrite N; reflexivity).
           split; [exact R1|]. split; [lia|]. split; [intros y Hy Ny; apply R3; [lia|intro Q; injection Q as Q; congruence]|]. split.
           { exists (SPtr r false). split; [exact N2|]. split; [discriminate|]. split; [exists k; auto|]. intros y []. }
           split; [exact R6|]. split; [exact R8|]. split; [exact R9|]. unfold waits. rewrite N2. intro Q. injection Q as Q. congruence.
        -- intros [LT _]. auto.
        -- intros (n & Q & _). injection Q as ->. discriminate ET.
      * split; [|split].
        -- intro E. exfalso. revert E. apply err_ne. eapply more_trans; [exact M1|]. apply more_eq, errs_setbase.
        -- intros [LT (k & Kk & Ck)]. exfalso. pose proof (SB LT) as E. destruct (SA E) as [_ (_ & _ & _ & _ & _ & _ & (k' & K1 & K2) & _)].
           assert (is_comp st2 r = true) by (apply is_comp_kind; exists k'; split; auto; congruence). congruence.
        -- intros (n & Q & _). injection Q as ->. discriminate ET.
  - (* procedure *)
    rewrite body_proc, legal_proc. pose proof (more_proc_result re s (params s ps st)) as M2.
    assert (kind_at (heap st) 1 = Some KOther) as K1.
    { destruct Iv as (_ & _ & _ & P & N1 & _). unfold kind_at. rewrite P, N1; auto. apply (nth_lt _ _ _ N1). }
    assert (bodypost s b st st) as B0. { eapply bodypost_start; eauto; cbn; auto; try discriminate. }
    assert (forall x, X = Some x -> ~ waits (nth_error (heap st) x)) as HX'.
    { intros x Hx. destruct (HX x Hx) as [->|W]; auto. unfold waits. rewrite N. discriminate. }
    destruct (params_ok b s st Ls ltac:(lia) ps IH st [] 1 B0 N HX') as [PA PB].
    assert (more st (params s ps st)) as M1 by apply more_params.
    set (st2 := params s ps st) in *. assert (mode None) as Hm0 by (right; reflexivity).
    split; [|split].
    + intro E. destruct (more_squeeze _ _ _ M1 M2 E) as [E1 E2]. destruct (PA E1) as (LT & BP & pl & Np). left. destruct re as [n|].
      2:{ split; [split; [auto|intros n Q; discriminate Q]|]. exact BP. }
      cbn [proc_result] in *. pose proof BP as (Iv2 & _).
      destruct (lookup st2 n) as [[x|]|] eqn:Lk; try (exfalso; apply (f_equal (@length Z)) in E2; cbn in E2; lia).
      destruct (is_comp st2 x) eqn:C; [exfalso; apply (f_equal (@length Z)) in E2; cbn in E2; lia|].
      destruct (use_name None st2 n x Hm0 Iv2 Lk eq_refl) as (k & U & Kk & Fk & Lx & Wx).
      assert (k = KOther) as ->. { destruct k; auto; exfalso; assert (is_comp st2 x = true) by (apply is_comp_kind; eexists; split; [exact Kk|discriminate]); congruence. }
      split; [split; [auto|intros m Q; injection Q as <-; exact U]|]. rewrite Np in *.
      eapply (bodypost_same s b st st2 _ (SProc pl 1) (SProc pl x)); eauto; try discriminate; try lia.
      * intros h Hh. unfold kind_at. rewrite Hh, Np. reflexivity.
      * destruct BP as (_ & _ & _ & (q & Q1 & _ & Q3 & _) & _). rewrite Np in Q1. injection Q1 as <-. destruct Q3. split; auto.
    + intros [LT U]. pose proof (PB LT) as E1. destruct (PA E1) as (_ & BP & pl & Np). rewrite <- E1. destruct re as [n|]; [|reflexivity].
      cbn [proc_result]. pose proof BP as (Iv2 & _). destruct (name_usable None st2 n KOther Hm0 Iv2 (U n eq_refl)) as (x & Lk & _ & Kk). rewrite Lk.
      destruct (is_comp st2 x) eqn:C.
      * exfalso. apply is_comp_kind in C. destruct C as (k & C1 & C2). apply C2. congruence.
      * rewrite Np. reflexivity.
    + intros (n & Q & _). discriminate Q.
Qed.
End Item.

(** * Changes of pointers only *)
Definition ptrs (h h' : list struct) : Prop :=
  length h' = length h /\ forall x, nth_error h' x = nth_error h x \/ (exists b m b' m', nth_error h x = Some (SPtr b m) /\ nth_error h' x = Some (SPtr b' m')).
Lemma ptrs_refl : forall h, ptrs h h. Proof. intro h. split; auto. Qed.
Lemma ptrs_kind : forall h h' x, ptrs h h' -> kind_at h' x = kind_at h x.
Proof. intros h h' x [_ P]. unfold kind_at. destruct (P x) as [->|(b & m & b' & m' & -> & ->)]; reflexivity. Qed.
Lemma ptrs_kinds : forall h h', ptrs h h' -> kinds_kept h h'.
Proof. intros h h' P x k H. rewrite (ptrs_kind h); auto. Qed.
Lemma ptrs_Finite : forall h h' x, ptrs h h' -> Finite h x -> Finite h' x.
Proof.
  intros h h' x P H. induction H as [x s E N _ IH]. destruct P as [_ P]. destruct (P x) as [Q|(b & m & b' & m' & Q1 & Q2)].
  - eapply finite_intro; eauto. rewrite Q. exact E.
  - eapply finite_intro; [exact Q2|discriminate|]. intros y [].
Qed.
Lemma updn_id : forall h i x, nth_error h i = Some x -> updn h i x = h.
Proof. induction h as [|y h IH]; intros [|i] x H; cbn in *; try discriminate; [congruence|]. rewrite IH; auto. Qed.
Lemma named_ptrs : forall s st, ptrs (heap st) (heap (set_named s st)).
Proof.
  intros. unfold set_named. destruct (nth_error (heap st) s) as [q|] eqn:E; [|apply ptrs_refl]. destruct q; try apply ptrs_refl. cbn [with_heap heap].
  split; [apply updn_length|]. intro x. destruct (Nat.eq_dec s x) as [->|N].
  - right. exists b, named, b, true. split; auto. apply updn_same. eapply nth_lt; eauto.
  - left. apply updn_other. auto.
Qed.
Definition cleared (n : name) (e : nat * name * bool) : nat * name * bool := let '(x, m, d) := e in if negb d && (m =? n)%Z then (x, m, true) else (x, m, d).
Definition place_of (e : nat * name * bool) : nat := fst (fst e).
Lemma resolve_ok : forall n r f h, NoDup (map place_of f) -> (forall x, In (x, n, false) f -> nth_error h x = Some (SPtr 0 true)) ->
  fst (resolve f n r h) = map (cleared n) f /\ ptrs h (snd (resolve f n r h)) /\
  (forall x, In (x, n, false) f -> nth_error (snd (resolve f n r h)) x = Some (SPtr r true)) /\
  (forall x, ~ In (x, n, false) f -> nth_error (snd (resolve f n r h)) x = nth_error h x).
Proof.
  intros n r f. induction f as [|[[x m] d] f IH]; intros h ND H; cbn [resolve map cleared].
  - split; [reflexivity|]. split; [apply ptrs_refl|]. split; [intros x []|auto].
  - cbn [map place_of fst] in ND. apply NoDup_cons_iff in ND. destruct ND as [NI ND].
    destruct (negb d && (m =? n)%Z) eqn:C.
    + apply andb_true_iff in C. destruct C as [Cd Cm]. apply Z.eqb_eq in Cm. destruct d; [discriminate|]. subst m.
      rewrite (H x (or_introl eq_refl)). set (h1 := updn h x (SPtr r true)).
      assert (nth_error h1 x = Some (SPtr r true)) as E1 by (apply updn_same; eapply nth_lt; apply H; left; reflexivity).
      destruct (IH h1) as (I1 & I2 & I3 & I4); auto.
      { intros y Hy. unfold h1. rewrite updn_other; [apply H; right; auto|]. intros ->. apply NI. apply in_map_iff. exists (y, n, false). auto. }
      destruct (resolve f n r h1) as [f' h'] eqn:R. cbn [fst snd] in *. split; [congruence|].
      assert (~ In (x, n, false) f) as NX. { intro Q. apply NI. apply in_map_iff. exists (x, n, false). auto. }
      split; [|split].
      * split; [rewrite (proj1 I2); apply updn_length|]. intro y. destruct (Nat.eq_dec x y) as [<-|N].
        -- right. exists 0, true, r, true. split; [apply H; left; reflexivity|]. rewrite I4; auto.
        -- destruct (proj2 I2 y) as [Q|(b & q & b' & q' & Q1 & Q2)].
           ++ left. rewrite Q. apply updn_other. auto.
           ++ right. exists b, q, b', q'. split; auto. rewrite <- Q1. symmetry. apply updn_other. auto.
      * intros y [Q|Q]; [injection Q as <-; rewrite I4; auto|apply I3; auto].
      * intros y Q. rewrite I4 by (intro; apply Q; right; auto). apply updn_other. intros ->. apply Q. left. reflexivity.
    + assert (forall y, In (y, n, false) ((x, m, d) :: f) -> In (y, n, false) f) as IN.
      { intros y [Q|Q]; auto. injection Q as <- -> ->. cbn in C. rewrite Z.eqb_refl in C. discriminate. }
      destruct (IH h) as (I1 & I2 & I3 & I4); auto. { intros y Hy. apply H. right. auto. }
      destruct (resolve f n r h) as [f' h'] eqn:R. cbn [fst snd] in *. split; [congruence|]. split; [exact I2|]. split; [intros; apply I3; auto|].
      intros y Q. apply I4. intro. apply Q. right. auto.
Qed.

(** * Histories of declarations *)
Definition names (h : list struct) (env : list (name * obj)) (c : ctx) : Prop :=
  forall n, match assoc env n, assoc c n with
            | None, None => True
            | Some OOther, Some None => True
            | Some (OTyp s), Some (Some k) => kind_at h s = Some k /\ forall b, nth_error h s <> Some (SPtr b false)
            | _, _ => False
            end.
Record J (st : state) (l o : ctx) (w : list name) : Prop := mkJ {
  j0 : nth_error (heap st) 0 = Some SUndef;
  j1 : nth_error (heap st) 1 = Some SBasic;
  j2 : forall x s, nth_error (heap st) x = Some s -> s <> SUndef -> Finite (heap st) x /\ (Shaped (heap st) s \/ (s = SPtr 0 true /\ exists n, In (x, n, false) (fwd st)));
  j3 : names (heap st) (loc st) l;
  j3o : names (heap st) (out st) o;
  j4 : forall x n d, In (x, n, d) (fwd st) -> if d then exists r, nth_error (heap st) x = Some (SPtr r true) /\ assoc (loc st) n = Some (OTyp r) else nth_error (heap st) x = Some (SPtr 0 true);
  j5 : NoDup (map place_of (fwd st));
  j6 : forall n, In n w <-> exists x, In (x, n, false) (fwd st) }.
Lemma names_kept : forall h h' env c, kinds_kept h h' -> (forall s k b, kind_at h s = Some k -> nth_error h s <> Some (SPtr b false) \/ True -> (forall b, nth_error h s <> Some (SPtr b false)) -> nth_error h' s <> Some (SPtr b false)) ->
  names h env c -> names h' env c.
Proof.
  intros h h' env c K P N n. specialize (N n). destruct (assoc env n) as [[s|]|]; destruct (assoc c n) as [[k|]|]; auto. destruct N as [N1 N2]. split; auto.
  intro b. eapply P; eauto.
Qed.
Lemma names_insert : forall h env c n o k, names h env c ->
  match o, k with OOther, None => True | OTyp s, Some k => kind_at h s = Some k /\ forall b, nth_error h s <> Some (SPtr b false) | _, _ => False end ->
  names h ((n, o) :: env) ((n, k) :: c).
Proof. intros h env c n o k N H m. cbn [assoc]. destruct (n =? m)%Z; [|apply N]. destruct o, k; auto. Qed.
Lemma names_fresh : forall h env c n, names h env c -> assoc env n = None <-> fresh c n.
Proof. intros h env c n N. specialize (N n). unfold fresh. destruct (assoc env n) as [[]|]; destruct (assoc c n) as [[]|]; split; try congruence; tauto. Qed.
Lemma names_find : forall hb h env outer l o, names h env l -> names h outer o ->
  (forall s k, kind_at h s = Some k -> (forall b, nth_error h s <> Some (SPtr b false)) -> Finite hb s /\ kind_at hb s = Some k /\ forall b, nth_error hb s <> Some (SPtr b false)) ->
  forall n, entry hb None None KOther (l, o) env outer n.
Proof.
  intros hb h env outer l o N1 N2 H n. unfold entry, find, known. cbn [fst snd]. specialize (N1 n). specialize (N2 n).
  destruct (assoc env n) as [[s|]|]; destruct (assoc l n) as [[k|]|]; try tauto.
  - right. split; [discriminate|]. destruct N1. auto.
  - destruct (assoc outer n) as [[s|]|]; destruct (assoc o n) as [[k|]|]; try tauto. right. split; [discriminate|]. destruct N2. auto.
Qed.
Lemma J_named : forall st l o w s k, J st l o w -> kind_at (heap st) s = Some k -> (forall b, nth_error (heap st) s <> Some (SPtr b false)) ->
  Finite (heap st) s /\ kind_at (heap st) s = Some k /\ forall b, nth_error (heap st) s <> Some (SPtr b false).
Proof.
  intros st l o w s k HJ K P. split; [|auto]. unfold kind_at in K. destruct (nth_error (heap st) s) as [q|] eqn:E; [|discriminate].
  apply (j2 _ _ _ _ HJ s q E). intros ->. discriminate.
Qed.

(** What the rules say about one declaration. *)
Definition step_rule (o l : ctx) (w : list name) (c : nat) (d : item) (l' : ctx) (w' : list name) (c' : nat) : Prop :=
  match d with
  | DConst n => fresh l n /\ l' = (n, None) :: l /\ w' = w /\ c' = c
  | DVar ns t => fresh_all l ns /\ legal_type (entered l ns, o) None t /\ kind_of (entered l ns, o) t <> Some KDyn /\ l' = entered l ns /\ w' = w /\ c' = c
  | DType n t => fresh l n /\ exists k, kind_of (l, o) t = Some k /\ l' = (n, Some k) :: l /\
      ((legal_type (l', o) (Some n) t /\ w' = (match k with KOther => w | _ => filter (fun m => negb (m =? n)%Z) w end) /\ c' = c) \/
       (exists m, t = TPtr (TName m) /\ known (l', o) m = None /\ c < 64 /\ w' = m :: w /\ c' = S c))
  end.
Lemma legal_step : forall o l w c d ds, legal o l w c (d :: ds) <-> exists l' w' c', step_rule o l w c d l' w' c' /\ legal o l' w' c' ds.
Proof.
  intros. destruct d as [n|n t|ns t]; cbn [legal step_rule].
  - split; [intros [H1 H2]; exists ((n, None) :: l), w, c; auto|]. intros (l' & w' & c' & (H1 & -> & -> & ->) & H2). auto.
  - split.
    + intros [H1 H2]. destruct (kind_of (l, o) t) as [k|]; [|destruct H2]. destruct H2 as [[H2 H3]|(m & -> & H2 & H3 & H4)].
      * eexists _, _, _. split; [|exact H3]. split; [exact H1|]. exists k. split; [reflexivity|]. split; [reflexivity|]. left. auto.
      * eexists _, _, _. split; [|exact H4]. split; auto. exists k. split; auto. split; auto. right. exists m. repeat split; auto.
    + intros (l' & w' & c' & (H1 & k & -> & -> & H2) & H3). split; auto. destruct H2 as [(H2 & -> & ->)|(m & -> & H2 & H4 & -> & ->)]; [left; auto|]. right. exists m. auto.
  - split; [intros (H1 & H2 & H3 & H4); eexists _, _, _; split; [|exact H4]; auto 6|]. intros (l' & w' & c' & (H1 & H2 & H3 & -> & -> & ->) & H4). auto.
Qed.
Lemma step_fun : forall o l w c d l1 w1 c1 l2 w2 c2, step_rule o l w c d l1 w1 c1 -> step_rule o l w c d l2 w2 c2 -> l1 = l2 /\ w1 = w2 /\ c1 = c2.
Proof.
  intros o l w c d l1 w1 c1 l2 w2 c2. destruct d as [n|n t|ns t]; cbn [step_rule].
  - intros (_ & -> & -> & ->) (_ & -> & -> & ->). auto.
  - intros (_ & k & K & -> & H1) (_ & k2 & K2 & -> & H2). assert (k2 = k) as -> by congruence. split; auto.
    destruct H1 as [(L1 & -> & ->)|(m & -> & N & _ & -> & ->)]; destruct H2 as [(L2 & -> & ->)|(m2 & E2 & N2 & _ & -> & ->)]; auto.
    + exfalso. subst t. destruct L1 as [(kk & [Q _]) _]. congruence.
    + exfalso. destruct L2 as [(kk & [Q _]) _]. congruence.
    + injection E2 as ->. auto.
  - intros (_ & _ & _ & -> & -> & ->) (_ & _ & _ & -> & -> & ->). auto.
Qed.

Lemma more_insert : forall n o st, more st (insert n o st).
Proof. intros. unfold insert. destruct (assoc (loc st) n); [exists [1%Z]|exists []]; reflexivity. Qed.
Lemma more_inserts : forall ns st, more st (fold_left (fun st n => insert n OOther st) ns st).
Proof. induction ns as [|n ns IH]; intro st; cbn [fold_left]; [apply more_refl|]. eapply more_trans; [apply more_insert|apply IH]. Qed.
Lemma more_declare : forall d st, more st (declare d st).
Proof.
  intros [n|n t|ns t] st; cbn [declare].
  - apply more_insert.
  - unfold TypeDecl. pose proof (more_insert n (OTyp 0) st) as M1. set (st1 := insert n (OTyp 0) st) in *. pose proof (more_hdr t (LObj n) (Some n) st1) as M2.
    destruct (hdr t (LObj n) (Some n) st1) as [st2 s]. cbn [fst] in M2. pose proof (more_body t s (Some n) st2) as M3. set (st3 := body t s (Some n) st2) in *.
    assert (more st (set_named s st3)) as M4.
    { eapply more_trans; [exact M1|]. eapply more_trans; [exact M2|]. eapply more_trans; [exact M3|]. unfold set_named. destruct (nth_error (heap st3) s) as [[]|]; apply more_eq; reflexivity. }
    destruct (is_comp (set_named s st3) s); auto. destruct (resolve (fwd (set_named s st3)) n s (heap (set_named s st3))) as [f h]. eapply more_trans; [exact M4|]. apply more_eq. reflexivity.
  - pose proof (more_inserts ns st) as M1. set (st1 := fold_left _ ns st) in *. unfold Type_, TypeDecl. pose proof (more_sub t LVar None st1 (more_body t)) as M2.
    destruct (hdr t LVar None st1) as [st2 s]. destruct (is_dyn (chkptr s (body t s None st2)) s).
    + eapply more_trans; [exact M1|]. eapply more_trans; [exact M2|apply more_err].
    + eapply more_trans; [exact M1|exact M2].
Qed.
Lemma inserts_ok : forall ns st l o w, J st l o w -> let st' := fold_left (fun st n => insert n OOther st) ns st in
  (errs st' = errs st -> fresh_all l ns /\ J st' (entered l ns) o w /\ heap st' = heap st /\ fwd st' = fwd st /\ out st' = out st) /\ (fresh_all l ns -> errs st' = errs st).
Proof.
  induction ns as [|n ns IH]; intros st l o w HJ; cbn [fold_left]; [split; auto; intros _; cbn; auto|].
  cbv zeta in *. pose proof (more_insert n OOther st) as M1. pose proof (more_inserts ns (insert n OOther st)) as M2. cbn [fresh_all entered fold_left].
  pose proof (names_fresh _ _ _ n (j3 _ _ _ _ HJ)) as NF.
  assert (assoc (loc st) n = None -> insert n OOther st = mkst (heap st) ((n, OOther) :: loc st) (out st) (fwd st) (errs st) /\ J (insert n OOther st) ((n, None) :: l) o w) as ST.
  { intro A. unfold insert. rewrite A. split; [reflexivity|]. destruct HJ as [a0 a1 a2 a3 a3o a4 a5 a6]. constructor; cbn [heap loc out fwd]; auto; [apply names_insert; auto|].
    intros x m d Hx. specialize (a4 x m d Hx). destruct d; auto. destruct a4 as (r & Q1 & Q2). exists r. split; auto. cbn [assoc]. destruct (n =? m)%Z eqn:E; auto. apply Z.eqb_eq in E. subst. congruence. }
  split.
  - intro E. destruct (more_squeeze _ _ _ M1 M2 E) as [E1 E2].
    assert (assoc (loc st) n = None) as A. { destruct (assoc (loc st) n) eqn:A; auto. exfalso. unfold insert in E1. rewrite A in E1. apply (f_equal (@length Z)) in E1. cbn in E1. lia. }
    destruct (ST A) as [EI HJ']. destruct (IH _ _ _ _ HJ') as [IA _]. destruct (IA E2) as (F & HJ2 & Q1 & Q2 & Q3). split; [split; [apply NF; auto|auto]|]. split; [exact HJ2|].
    rewrite Q1, Q2, Q3, EI. auto.
  - intros [F1 F2]. apply NF in F1. destruct (ST F1) as [EI HJ']. destruct (IH _ _ _ _ HJ') as [_ IB]. rewrite (IB F2), EI. reflexivity.
Qed.

(** New structures at the end of the heap. *)
Lemma J_extend : forall st st' l l' o w lo, J st l o w -> lo = length (heap st) -> fwd st' = fwd st -> out st' = out st ->
  (forall y, y < lo -> nth_error (heap st') y = nth_error (heap st) y) ->
  (forall y, lo <= y < length (heap st') -> Finite (heap st') y /\ exists q, nth_error (heap st') y = Some q /\ q <> SUndef /\ Shaped (heap st') q) ->
  names (heap st') (loc st') l' -> (forall n r, assoc (loc st) n = Some (OTyp r) -> assoc (loc st') n = Some (OTyp r)) ->
  J st' l' o w.
Proof.
  intros st st' l l' o w lo [a0 a1 a2 a3 a3o a4 a5 a6] -> EF EO P R N L.
  assert (kinds_kept (heap st) (heap st')) as KK. { intros x k H. rewrite (kind_at_eq (heap st)); auto. apply P. eapply kind_at_lt; eauto. }
  constructor; rewrite ?EF, ?EO; auto.
  - rewrite P; auto. eapply nth_lt; eauto.
  - rewrite P; auto. eapply nth_lt; eauto.
  - intros x s E NU. destruct (le_lt_dec (length (heap st)) x) as [G|Lx].
    + destruct (R x) as [F (q & Q1 & Q2 & Q3)]; [split; [auto|eapply nth_lt; eauto]|]. split; auto. left. congruence.
    + rewrite P in E by auto. destruct (a2 x s E NU) as [F S]. split.
      * apply (Fin_Finite None (length (heap st)) 0); [discriminate|]. apply Finite_Fin; auto.
      * destruct S as [S|S]; [left; eapply Shaped_kept; eauto|right; auto].
  - eapply names_kept; [exact KK| |exact a3o]. intros s k b K _ NP. rewrite P; [apply NP|eapply kind_at_lt; eauto].
  - intros x n d Hx. specialize (a4 x n d Hx). destruct d.
    + destruct a4 as (r & Q1 & Q2). exists r. split; auto. rewrite P; auto. eapply nth_lt; eauto.
    + rewrite P; auto. eapply nth_lt; eauto.
Qed.
(** Naming a type and resolving the pointers that wait for it. *)
Definition finish (n : name) (s : nat) (st : state) : state :=
  let st := set_named s st in
  if is_comp st s then let '(f, h) := resolve (fwd st) n s (heap st) in mkst h (loc st) (out st) f (errs st) else st.
Lemma finish_fields : forall n s st, loc (finish n s st) = loc st /\ out (finish n s st) = out st /\ errs (finish n s st) = errs st /\ length (fwd (finish n s st)) = length (fwd st).
Proof.
  intros. unfold finish. assert (loc (set_named s st) = loc st /\ out (set_named s st) = out st /\ errs (set_named s st) = errs st /\ fwd (set_named s st) = fwd st) as (Q1 & Q2 & Q3 & Q4).
  { unfold set_named. destruct (nth_error (heap st) s) as [[]|]; auto. }
  destruct (is_comp (set_named s st) s); [|repeat split; congruence]. rewrite Q4.
  assert (forall f h, length (fst (resolve f n s h)) = length f) as RL.
  { clear. induction f as [|[[x m] d] f IH]; intro h; cbn [resolve]; auto. destruct (negb d && (m =? n)%Z).
    - specialize (IH (match nth_error h x with Some (SPtr _ nm) => updn h x (SPtr s nm) | _ => h end)). destruct (resolve f n s _). cbn in *. lia.
    - specialize (IH h). destruct (resolve f n s h). cbn in *. lia. }
  specialize (RL (fwd st) (heap (set_named s st))). destruct (resolve (fwd st) n s (heap (set_named s st))) as [f h]. cbn [loc out errs fwd fst] in *. auto.
Qed.
Lemma filter_in : forall n (w : list name) m, In m (filter (fun m => negb (m =? n)%Z) w) <-> In m w /\ m <> n.
Proof. intros. rewrite filter_In, negb_true_iff, Z.eqb_neq. reflexivity. Qed.
Lemma cleared_place : forall n f, map place_of (map (cleared n) f) = map place_of f.
Proof. intros n f. rewrite map_map. apply map_ext. intros [[x m] d]. cbn [cleared]. destruct (negb d && (m =? n)%Z); reflexivity. Qed.

(** Structures only, with the names given separately: what remains to be done after a type declaration. *)
Record K (n : name) (s : nat) (k : kind) (st : state) (l o : ctx) (w : list name) : Prop := mkK {
  k0 : nth_error (heap st) 0 = Some SUndef;
  k1 : nth_error (heap st) 1 = Some SBasic;
  k2 : forall x q, nth_error (heap st) x = Some q -> q <> SUndef -> Finite (heap st) x /\
        (Shaped (heap st) q \/ ((exists m, In (x, m, false) (fwd st)) /\ (q = SPtr 0 true \/ (x = s /\ q = SPtr 0 false))));
  k3 : exists env, loc st = (n, OTyp s) :: env /\ names (heap st) env l /\ assoc env n = None;
  k3o : names (heap st) (out st) o;
  k3k : kind_at (heap st) s = Some k;
  k4 : forall x m d, In (x, m, d) (fwd st) -> if d then exists r, nth_error (heap st) x = Some (SPtr r true) /\ assoc (loc st) m = Some (OTyp r)
        else nth_error (heap st) x = Some (SPtr 0 true) \/ (x = s /\ nth_error (heap st) x = Some (SPtr 0 false));
  k5 : NoDup (map place_of (fwd st));
  k6 : forall m, In m w <-> exists x, In (x, m, false) (fwd st) }.
Lemma names_ptrs : forall h h' env c s, ptrs h h' -> (forall x b, x <> s -> nth_error h x <> Some (SPtr b false) -> nth_error h' x <> Some (SPtr b false)) ->
  (forall b, nth_error h' s <> Some (SPtr b false)) -> names h env c -> names h' env c.
Proof.
  intros h h' env c s P H Hs N n. specialize (N n). destruct (assoc env n) as [[x|]|]; destruct (assoc c n) as [[k|]|]; auto. destruct N as [N1 N2].
  split; [rewrite (ptrs_kind h); auto|]. intro b. destruct (Nat.eq_dec x s) as [->|NE]; auto.
Qed.
Lemma finish_ok : forall n s k st l o w, K n s k st l o w -> J (finish n s st) ((n, Some k) :: l) o (match k with KOther => w | _ => filter (fun m => negb (m =? n)%Z) w end).
Proof.
  intros n s k st l o w [a0 a1 a2 (env & a3l & a3 & a3f) a3o a3k a4 a5 a6].
  (* naming *)
  set (st1 := set_named s st). pose proof (named_ptrs s st) as P1. fold st1 in P1.
  assert (loc st1 = loc st /\ out st1 = out st /\ errs st1 = errs st /\ fwd st1 = fwd st) as (Q1 & Q2 & Q3 & Q4).
  { unfold st1, set_named. destruct (nth_error (heap st) s) as [[]|]; auto. }
  assert (forall x, x <> s -> nth_error (heap st1) x = nth_error (heap st) x) as S1.
  { intros x N. unfold st1, set_named. destruct (nth_error (heap st) s) as [[]|]; auto. cbn [with_heap heap]. apply updn_other. auto. }
  assert (nth_error (heap st1) s = match nth_error (heap st) s with Some (SPtr b _) => Some (SPtr b true) | q => q end) as S2.
  { unfold st1, set_named. destruct (nth_error (heap st) s) as [q|] eqn:E; [|congruence]. destruct q; auto. cbn [with_heap heap]. apply updn_same. eapply nth_lt; eauto. }
  pose proof (ptrs_kinds _ _ P1) as KK1.
  assert (forall b, nth_error (heap st1) s <> Some (SPtr b false)) as NP.
  { intros b. rewrite S2. destruct (nth_error (heap st) s) as [[]|]; congruence. }
  assert (J st1 ((n, Some k) :: l) o w) as J1.
  { constructor.
    - rewrite S1; auto. intros <-. rewrite a0 in S2. unfold kind_at in a3k. rewrite a0 in a3k. discriminate.
    - destruct (Nat.eq_dec 1 s) as [<-|N]; [rewrite S2, a1; reflexivity|rewrite S1; auto].
    - intros x q E NU. destruct (Nat.eq_dec x s) as [->|N].
      + rewrite S2 in E. destruct (nth_error (heap st) s) as [q0|] eqn:E0; [|discriminate].
        assert (q0 <> SUndef) as NU0 by (intros ->; congruence). destruct (a2 s q0 E0 NU0) as [F S]. split; [eapply ptrs_Finite; eauto|]. rewrite Q4.
        destruct S as [S|[S1' S2']].
        * left. apply (Shaped_kept _ _ _ KK1) in S. destruct q0; injection E as <-; auto.
        * right. split; auto. destruct S2' as [->|[_ ->]]; injection E as <-; reflexivity.
      + rewrite S1 in E by auto. destruct (a2 x q E NU) as [F S]. split; [eapply ptrs_Finite; eauto|]. rewrite Q4.
        destruct S as [S|[S1' S2']]; [left; eapply Shaped_kept; eauto|]. right. destruct S2' as [->|[-> _]]; [auto|congruence].
    - rewrite Q1, a3l. apply names_insert.
      + eapply (names_ptrs (heap st) _ _ _ s); eauto. intros x b N H. rewrite S1; auto.
      + split; [apply KK1; auto|auto].
    - rewrite Q2. eapply (names_ptrs (heap st) _ _ _ s); eauto. intros x b N H. rewrite S1; auto.
    - intros x m d Hx. rewrite Q4 in Hx. specialize (a4 x m d Hx). rewrite Q1. destruct d.
      + destruct a4 as (r & R1 & R2). exists r. split; auto. destruct (Nat.eq_dec x s) as [->|N]; [rewrite S2, R1; reflexivity|rewrite S1; auto].
      + destruct (Nat.eq_dec x s) as [->|N]; [rewrite S2|rewrite S1; auto].
        * destruct a4 as [-> |[_ ->]]; reflexivity.
        * destruct a4 as [H|[H _]]; [exact H|congruence].
    - rewrite Q4. auto.
    - rewrite Q4. auto. }
  unfold finish. fold st1. destruct (is_comp st1 s) eqn:C.
  2:{ assert (k = KOther) as ->; [|exact J1]. destruct k; auto; exfalso; assert (is_comp st1 s = true) by (apply is_comp_kind; eexists; split; [apply KK1; exact a3k|discriminate]); congruence. }
  assert (k <> KOther) as CK. { apply is_comp_kind in C. destruct C as (k' & C1 & C2). apply KK1 in a3k. congruence. }
  assert (forall (a b : list name), match k with KOther => a | _ => b end = b) as Mk by (intros; destruct k; congruence).
  rewrite Mk.
  destruct J1 as [b0 b1 b2 b3 b3o b4 b5 b6].
  destruct (resolve_ok n s (fwd st1) (heap st1) b5) as (R1 & R2 & R3 & R4). { intros x Hx. apply (b4 x n false Hx). }
  destruct (resolve (fwd st1) n s (heap st1)) as [f h]. cbn [fst snd] in *. pose proof (ptrs_kinds _ _ R2) as KK2.
  assert (nth_error h s = nth_error (heap st1) s) as Rs.
  { apply R4. intro Q. specialize (b4 _ _ _ Q). cbv iota in b4. apply is_comp_kind in C. destruct C as (k' & C1 & C2). unfold kind_at in C1. rewrite b4 in C1. injection C1 as <-. apply C2. reflexivity. }
  assert (forall x m, In (x, m, false) f <-> In (x, m, false) (fwd st1) /\ m <> n) as FI.
  { intros x m. rewrite R1, in_map_iff. split.
    - intros ([[y m'] d] & E & Hy). cbn [cleared] in E. destruct d; cbn [negb andb] in E; [discriminate|]. destruct (m' =? n)%Z eqn:B; [discriminate|]. injection E as -> ->. split; auto. apply Z.eqb_neq. auto.
    - intros [H1 H2]. exists (x, m, false). split; auto. cbn [cleared negb andb]. apply Z.eqb_neq in H2. rewrite H2. reflexivity. }
  constructor; cbn [heap loc out fwd errs].
  - rewrite R4; auto. intro Q. specialize (b4 _ _ _ Q). cbv iota in b4. congruence.
  - rewrite R4; auto. intro Q. specialize (b4 _ _ _ Q). cbv iota in b4. congruence.
  - intros x q E NU. assert (forall q0, nth_error (heap st1) x = Some q0 -> q0 <> SUndef -> Finite h x) as FF. { intros q0 E0 N0. eapply ptrs_Finite; eauto. apply (b2 x q0 E0 N0). }
    assert ((exists m0, In (x, m0, false) (fwd st1) /\ m0 = n) \/ ~ In (x, n, false) (fwd st1)) as [(m0 & Q & ->)|Q].
    { destruct (in_dec (fun a b : nat * name * bool => ltac:(repeat decide equality)) (x, n, false) (fwd st1)); eauto. }
    + pose proof (b4 _ _ _ Q) as E0. cbv iota in E0. split; [eapply FF; [exact E0|discriminate]|]. rewrite (R3 x Q) in E. injection E as <-. left. exists k. split; auto.
    + rewrite R4 in E by auto. split; [eapply FF; eauto|]. destruct (b2 x q E NU) as [_ [S|[S (m0 & S')]]]; [left; eapply Shaped_kept; eauto|]. right. split; auto. exists m0. apply FI. split; auto. intros ->. auto.
  - eapply (names_ptrs (heap st1) _ _ _ s); eauto; [|intro b; rewrite Rs; apply NP]. intros x b N H.
    destruct (in_dec (fun a b : nat * name * bool => ltac:(repeat decide equality)) (x, n, false) (fwd st1)) as [Q|Q]; [rewrite (R3 x Q); discriminate|rewrite R4; auto].
  - eapply (names_ptrs (heap st1) _ _ _ s); eauto; [|intro b; rewrite Rs; apply NP]. intros x b N H.
    destruct (in_dec (fun a b : nat * name * bool => ltac:(repeat decide equality)) (x, n, false) (fwd st1)) as [Q|Q]; [rewrite (R3 x Q); discriminate|rewrite R4; auto].
  - intros x m d Hx. destruct d.
    + rewrite R1 in Hx. apply in_map_iff in Hx. destruct Hx as ([[y m'] d] & E & Hy). cbn [cleared] in E. destruct (negb d && (m' =? n)%Z) eqn:B.
      * injection E as -> ->. apply andb_true_iff in B. destruct B as [B1 B2]. apply Z.eqb_eq in B2. subst m. destruct d; [discriminate|]. exists s. split; [apply R3; auto|]. rewrite Q1, a3l. cbn [assoc]. rewrite Z.eqb_refl. reflexivity.
      * injection E as -> -> ->. destruct (b4 _ _ _ Hy) as (r & E1 & E2). exists r. split; auto. rewrite R4; auto. intro Q.
        pose proof (b4 _ _ _ Q) as E3. cbv iota in E3. rewrite E1 in E3. injection E3 as ->.
        apply (NoDup_map_inv place_of) in b5 as ND. 
        (* the same place twice *)
        assert (forall f0, NoDup (map place_of f0) -> forall y m1 d1 m2 d2, In (y, m1, d1) f0 -> In (y, m2, d2) f0 -> d1 = d2) as U.
        { clear. induction f0 as [|e f0 IH]; intros N y m1 d1 m2 d2 H1 H2; [destruct H1|]. cbn [map] in N. apply NoDup_cons_iff in N. destruct N as [N1 N2].
          destruct H1 as [->|H1]; destruct H2 as [H2|H2].
          - congruence.
          - exfalso. apply N1. apply in_map_iff. exists (y, m2, d2). auto.
          - subst e. exfalso. apply N1. apply in_map_iff. exists (y, m1, d1). auto.
          - eapply IH; eauto. }
        pose proof (U _ b5 _ _ _ _ _ Hy Q). discriminate.
    + apply FI in Hx. destruct Hx as [Hx N]. specialize (b4 _ _ _ Hx). cbv iota in b4. rewrite R4; auto. intro Q.
      assert (forall f0, NoDup (map place_of f0) -> forall y m1 d1 m2 d2, In (y, m1, d1) f0 -> In (y, m2, d2) f0 -> m1 = m2) as U.
      { clear. induction f0 as [|e f0 IH]; intros N y m1 d1 m2 d2 H1 H2; [destruct H1|]. cbn [map] in N. apply NoDup_cons_iff in N. destruct N as [N1 N2].
        destruct H1 as [->|H1]; destruct H2 as [H2|H2].
        - congruence.
        - exfalso. apply N1. apply in_map_iff. exists (y, m2, d2). auto.
        - subst e. exfalso. apply N1. apply in_map_iff. exists (y, m1, d1). auto.
        - eapply IH; eauto. }
      apply N. eapply (U _ b5); eauto.
  - rewrite R1, cleared_place. auto.
  - intro m. rewrite filter_in, b6. split.
    + intros [(x & Hx) N]. exists x. apply FI. auto.
    + intros (x & Hx). apply FI in Hx. destruct Hx as [Hx N]. split; [exists x; auto|auto].
Qed.

Lemma declare_type_unfold : forall n t st, declare (DType n t) st = let '(st2, s) := hdr t (LObj n) (Some n) (insert n (OTyp 0) st) in finish n s (body t s (Some n) st2).
Proof. intros. cbn [declare]. unfold TypeDecl, finish. destruct (hdr t (LObj n) (Some n) (insert n (OTyp 0) st)). reflexivity. Qed.
Lemma names_prefix : forall h h' env c, (forall y, y < length h -> nth_error h' y = nth_error h y) -> names h env c -> names h' env c.
Proof.
  intros h h' env c P N. assert (kinds_kept h h') as KK. { intros x k H. rewrite (kind_at_eq h); auto. apply P. eapply kind_at_lt; eauto. }
  eapply names_kept; [exact KK| |exact N]. intros s k b Kk _ NP. rewrite P; [apply NP|eapply kind_at_lt; eauto].
Qed.
Lemma Finite_prefix : forall h h' x, (forall y, y < length h -> nth_error h' y = nth_error h y) -> Finite h x -> Finite h' x.
Proof. intros h h' x P H. apply (Fin_Finite None (length h) 0); [discriminate|]. apply Finite_Fin; auto. Qed.
Lemma step_type : forall n t st l o w, J st l o w ->
  (errs (declare (DType n t) st) = errs st -> exists l' w' c', step_rule o l w (length (fwd st)) (DType n t) l' w' c' /\ J (declare (DType n t) st) l' o w' /\ c' = length (fwd (declare (DType n t) st))) /\
  (forall l' w' c', step_rule o l w (length (fwd st)) (DType n t) l' w' c' -> errs (declare (DType n t) st) = errs st).
Proof.
  intros n t st l o w HJ. pose proof (more_declare (DType n t) st) as MD. pose proof HJ as [a0 a1 a2 a3 a3o a4 a5 a6].
  pose proof (names_fresh _ _ _ n a3) as NF. rewrite declare_type_unfold in *.
  assert (more (insert n (OTyp 0) st) (let '(st2, s) := hdr t (LObj n) (Some n) (insert n (OTyp 0) st) in finish n s (body t s (Some n) st2))) as MI.
  { pose proof (more_hdr t (LObj n) (Some n) (insert n (OTyp 0) st)) as M2. destruct (hdr t (LObj n) (Some n) (insert n (OTyp 0) st)) as [st2 s]. cbn [fst] in M2.
    eapply more_trans; [exact M2|]. eapply more_trans; [apply (more_body t s (Some n) st2)|]. apply more_eq. apply finish_fields. }
  destruct (assoc (loc st) n) as [ob|] eqn:A.
  { split.
    - intro E. exfalso. destruct (more_squeeze _ _ _ (more_insert n (OTyp 0) st) MI E) as [E1 _]. unfold insert in E1. rewrite A in E1. apply (f_equal (@length Z)) in E1. cbn in E1. lia.
    - intros l' w' c' (F & _). apply NF in F. discriminate. }
  assert (fresh l n) as F by (apply NF; reflexivity). clear NF MI.
  assert (insert n (OTyp 0) st = mkst (heap st) ((n, OTyp 0) :: loc st) (out st) (fwd st) (errs st)) as EI by (unfold insert; rewrite A; reflexivity).
  rewrite EI in *. clear EI. set (st1 := mkst (heap st) ((n, OTyp 0) :: loc st) (out st) (fwd st) (errs st)) in *.
  assert (forall v, store (LObj n) v st1 = mkst (heap st) ((n, OTyp v) :: loc st) (out st) (fwd st) (errs st)) as ST.
  { intro v. unfold st1. cbn [store loc heap out fwd errs upda]. rewrite Z.eqb_refl. reflexivity. }
  destruct (is_name t) eqn:EN.
  - destruct t as [m| | | | |]; try discriminate EN. unfold hdr in MD |- *. assert (store (LObj n) 0 st1 = st1) as S0 by (rewrite ST; reflexivity). rewrite S0 in MD |- *.
    destruct (Z.eq_dec m n) as [->|NE].
    { assert (lookup st1 n = Some (OTyp 0)) as Lk by (unfold lookup, st1; cbn [loc assoc]; rewrite Z.eqb_refl; reflexivity). rewrite Lk in MD |- *. unfold is_banned in MD |- *. rewrite Lk in MD |- *. cbn [Nat.eqb body] in MD |- *. split.
      - intro E. exfalso. destruct (finish_fields n 0 (err 58 st1)) as (_ & _ & E' & _). rewrite E' in E. apply (f_equal (@length Z)) in E. cbn in E. lia.
      - intros l' w' c' (_ & k & _ & -> & [([kk [_ Q]] & _)|(m & Q & _)]); [congruence|discriminate Q]. }
    assert (lookup st1 m = lookup st m) as Lk. { unfold lookup, st1. cbn [loc out assoc]. apply Z.eqb_neq in NE. rewrite Z.eqb_sym, NE. reflexivity. }
    rewrite Lk in MD |- *.
    assert (match lookup st m, known (l, o) m with
            | None, None => True | Some OOther, Some None => True
            | Some (OTyp s), Some (Some k) => kind_at (heap st) s = Some k /\ (forall b, nth_error (heap st) s <> Some (SPtr b false)) | _, _ => False end) as EK.
    { unfold lookup, known. cbn [fst snd]. specialize (a3 m). specialize (a3o m). destruct (assoc (loc st) m) as [[s|]|]; destruct (assoc l m) as [[k|]|]; try tauto; destruct (assoc (out st) m) as [[s'|]|]; destruct (assoc o m) as [[k'|]|]; tauto. }
    assert (forall k, known ((n, Some k) :: l, o) m = known (l, o) m) as KM. { intro k. unfold known. cbn [fst snd assoc]. apply Z.eqb_neq in NE. rewrite Z.eqb_sym, NE. reflexivity. }
    destruct (lookup st m) as [[s|]|] eqn:LE.
    + destruct (known (l, o) m) as [[k|]|] eqn:KE; try tauto. destruct EK as [EK1 EK2].
      assert (s <> 0) as Ns. { intros ->. unfold kind_at in EK1. rewrite a0 in EK1. discriminate. }
      assert (is_banned (Some n) st1 s = false) as B. { unfold is_banned, lookup, st1. cbn [loc assoc]. rewrite Z.eqb_refl. apply Nat.eqb_neq. auto. }
      rewrite B, (ST s) in MD |- *. clear B Lk. set (st2 := mkst (heap st) ((n, OTyp s) :: loc st) (out st) (fwd st) (errs st)) in *. cbn [body] in *.
      assert (K n s k st2 l o w) as HK.
      { constructor; unfold st2; cbn [heap loc out fwd]; auto.
        - intros x q E NU. destruct (a2 x q E NU) as [F1 [F2|[F2 F3]]]; split; auto.
        - exists (loc st). auto.
        - intros x m' d Hx. specialize (a4 x m' d Hx). destruct d; [|left; auto]. destruct a4 as (r & R1 & R2). exists r. split; auto. cbn [assoc]. destruct (n =? m')%Z eqn:Q; auto. apply Z.eqb_eq in Q. congruence. }
      split.
      * intros _. eexists _, _, _. split; [|split; [apply (finish_ok n s k st2 l o w HK)|reflexivity]].
        split; [exact F|]. exists k. split; [cbn [kind_of]; rewrite KE; reflexivity|]. split; [reflexivity|]. left. split; [exists k; split; [apply KM|congruence]|]. split; [reflexivity|].
        destruct (finish_fields n s st2) as (_ & _ & _ & FL). rewrite FL. reflexivity.
      * intros _ _ _ _. destruct (finish_fields n s st2) as (_ & _ & E' & _). rewrite E'. reflexivity.
    + destruct (known (l, o) m) as [[k|]|] eqn:KE; try tauto. split.
      * intro E. exfalso. cbn [body] in E. destruct (finish_fields n 0 (err 52 st1)) as (_ & _ & E' & _). rewrite E' in E. apply (f_equal (@length Z)) in E. cbn in E. lia.
      * intros l' w' c' (_ & k & Q & _). exfalso. cbn [kind_of] in Q. rewrite KE in Q. discriminate.
    + destruct (known (l, o) m) as [[k|]|] eqn:KE; try tauto. split.
      * intro E. exfalso. cbn [body] in E. destruct (finish_fields n 0 (err 52 (err 0 st1))) as (_ & _ & E' & _). rewrite E' in E. apply (f_equal (@length Z)) in E. cbn in E. lia.
      * intros l' w' c' (_ & k & Q & _). exfalso. cbn [kind_of] in Q. rewrite KE in Q. discriminate.
  - set (s := length (heap st)) in *.
    assert (hdr t (LObj n) (Some n) st1 = (mkst (heap st ++ [init t]) ((n, OTyp s) :: loc st) (out st) (fwd st) (errs st), s)) as EH.
    { assert (store (LObj n) 0 st1 = st1) as S0 by (rewrite ST; reflexivity). unfold hdr. rewrite S0. destruct t; try discriminate EN; cbn [heap st1 store with_heap loc out fwd errs upda]; rewrite Z.eqb_refl; reflexivity. }
    rewrite EH in *. clear EH ST. set (st2 := mkst (heap st ++ [init t]) ((n, OTyp s) :: loc st) (out st) (fwd st) (errs st)) in *.
    destruct (init_kind (l, o) t EN) as [NK _]. destruct (kind_of (l, o) t) as [k|] eqn:Ek; [|congruence]. clear NK.
    assert (forall g, kind_of g t = Some k) as Eg. { intro g. rewrite <- Ek. destruct t; try discriminate EN; reflexivity. }
    set (g := ((n, Some k) :: l, o)). set (lc := (n, OTyp s) :: loc st).
    assert (forall m, entry (heap st) (Some n) (Some s) k g lc (out st) m) as ENT.
    { intro m. unfold entry, find, known, lc, g. cbn [fst snd assoc]. destruct (n =? m)%Z eqn:Q.
      - apply Z.eqb_eq in Q. left. subst. auto.
      - apply Z.eqb_neq in Q. specialize (a3 m). specialize (a3o m). destruct (assoc (loc st) m) as [[x|]|]; destruct (assoc l m) as [[kk|]|]; try tauto.
        + right. split; [congruence|]. destruct a3. eapply J_named; eauto.
        + destruct (assoc (out st) m) as [[x|]|]; destruct (assoc o m) as [[kk|]|]; try tauto. right. split; [congruence|]. destruct a3o. eapply J_named; eauto. }
    assert (forall m, Some n = Some m -> exists x, Some s = Some x /\ find lc (out st) m = Some (OTyp x)) as OWN.
    { intros m Q. injection Q as <-. exists s. split; auto. unfold find, lc. cbn [assoc]. rewrite Z.eqb_refl. reflexivity. }
    assert (nth_error (heap st ++ [init t]) s = Some (init t)) as N2 by apply nth_snoc_new.
    assert (bodypre (heap st) (Some s) k lc (out st) t s st2) as PRE.
    { split; [exact EN|]. split; [|split; [unfold st2; cbn [heap]; rewrite app_length; cbn; unfold s; lia|split; [unfold s; lia|split; [exact N2|]]]].
      - unfold inv, st2. cbn [loc out heap]. rewrite app_length. split; [reflexivity|]. split; [reflexivity|]. split; [lia|]. split; [intros; apply nth_snoc_old; auto|]. split; [exact a1|].
        intros x Q. injection Q as <-. split; [unfold s; lia|]. rewrite <- (Eg g). apply init_kind; auto.
      - intros x Q. injection Q as <-. left. reflexivity. }
    assert (mode (Some n) (Some n)) as HM by (left; reflexivity).
    assert (Some n = None -> Some s = None) as ON by discriminate.
    destruct (all_bodies (heap st) (Some n) (Some s) k g lc (out st) ENT OWN a0 t (Some n) s st2 HM PRE) as (B1 & B2 & B3).
    set (st3 := body t s (Some n) st2) in *. destruct (finish_fields n s st3) as (_ & _ & FE & FL).
    assert (forall y, y < s -> nth_error (heap st2) y = nth_error (heap st) y) as P2 by (intros; apply nth_snoc_old; auto).
    split.
    + intro E. rewrite FE in E. destruct (B1 E) as [[LT BP]|(m & -> & Km & Cm & EF)].
      * destruct BP as (R1 & R2 & R3 & (q & R4 & R5 & R6 & R7) & R8 & R9 & R10 & R11). cbn [assumed] in R7.
        pose proof R1 as (V1 & V2 & V3 & V4 & V5 & V6). 
        assert (Finite (heap st3) s) as FS. { eapply finite_intro; eauto. intros y Hy. eapply (Fin_Finite None); [discriminate|]. apply R7; auto. }
        assert (length (heap st2) = S s) as L2 by apply PRE.
        assert (K n s k st3 l o w) as HK.
        { constructor.
          - rewrite V4; [exact a0|]. eapply nth_lt; eauto.
          - rewrite V4; [exact a1|]. eapply nth_lt; eauto.
          - intros x qx Ex NU. destruct (Nat.lt_trichotomy x s) as [L|[->|G]].
            + rewrite V4 in Ex by auto. destruct (a2 x qx Ex NU) as [F1 F2]. split; [apply (Finite_prefix (heap st)); auto|].
              assert (kinds_kept (heap st) (heap st3)) as KK. { intros y ky Hy. rewrite (kind_at_eq (heap st)); auto. apply V4. eapply kind_at_lt; eauto. }
              destruct F2 as [F2|[F2 F3]]; [left; eapply Shaped_kept; eauto|right]. rewrite R10. split; auto.
            + split; auto. left. congruence.
            + destruct (R8 x) as [F1 (q' & F2 & F3 & F4)]; [split; [lia|eapply nth_lt; eauto]|]. split; [|left; congruence].
              eapply (Fin_Finite (Some s)); [|exact F1]. intros y Q. injection Q as <-. exact FS.
          - exists (loc st). split; [exact V1|]. split; [|exact A]. apply (names_prefix (heap st)); auto.
          - rewrite V2. apply (names_prefix (heap st)); auto.
          - destruct (V6 s eq_refl). auto.
          - rewrite R10. intros x m d Hx. specialize (a4 x m d Hx). destruct d.
            + destruct a4 as (r & Q1 & Q2). exists r. split; [rewrite V4; auto; eapply nth_lt; eauto|]. rewrite V1. unfold lc. cbn [assoc]. destruct (n =? m)%Z eqn:Q; auto. apply Z.eqb_eq in Q. congruence.
            + left. rewrite V4; auto. eapply nth_lt; eauto.
          - rewrite R10. auto.
          - rewrite R10. auto. }
        eexists _, _, _. split; [|split; [apply (finish_ok n s k st3 l o w HK)|reflexivity]].
        split; [exact F|]. exists k. split; [exact Ek|]. split; [reflexivity|]. left. split; [exact LT|]. split; [reflexivity|]. rewrite FL, R10. reflexivity.
      * assert (k = KOther) as -> by (cbn in Ek; congruence).
        assert (K n s KOther st3 l o (m :: w)) as HK.
        { rewrite EF. unfold st2. cbn [heap loc out fwd init] in *.
          assert (forall x mm d, In (x, mm, d) (fwd st) -> x < s) as LF.
          { intros x mm d Hx. specialize (a4 x mm d Hx). destruct d; [destruct a4 as (r & Q & _)|]; eapply nth_lt; eauto. }
          constructor; cbn [heap loc out fwd].
          - rewrite nth_snoc_old; auto. eapply nth_lt; eauto.
          - rewrite nth_snoc_old; auto. eapply nth_lt; eauto.
          - intros x qx Ex NU. assert (x < length (heap st ++ [SPtr 0 false])) as Lx by (eapply nth_lt; eauto). rewrite app_length in Lx. cbn in Lx.
            destruct (Nat.eq_dec x s) as [->|N].
            + rewrite N2 in Ex. injection Ex as <-. split; [eapply finite_intro; [exact N2|discriminate|intros y []]|]. right. split; [|auto]. exists m. apply in_app_iff. right. left. reflexivity.
            + rewrite nth_snoc_old in Ex by (unfold s in *; lia). destruct (a2 x qx Ex NU) as [F1 F2]. split; [apply (Finite_prefix (heap st)); auto|].
              assert (kinds_kept (heap st) (heap st ++ [SPtr 0 false])) as KK. { intros y ky Hy. rewrite (kind_at_eq (heap st)); auto. apply nth_snoc_old. eapply kind_at_lt; eauto. }
              destruct F2 as [F2|[F2 (mm & F3)]]; [left; eapply Shaped_kept; eauto|right]. split; auto. exists mm. apply in_app_iff. left. auto.
          - exists (loc st). split; [reflexivity|]. split; [|exact A]. apply (names_prefix (heap st)); auto.
          - apply (names_prefix (heap st)); auto.
          - unfold kind_at. rewrite N2. reflexivity.
          - intros x mm d Hx. apply in_app_iff in Hx. destruct Hx as [Hx|[Q|[]]].
            + specialize (a4 x mm d Hx). destruct d.
              * destruct a4 as (r & Q1 & Q2). exists r. split; [rewrite nth_snoc_old; auto; eapply nth_lt; eauto|]. cbn [assoc]. destruct (n =? mm)%Z eqn:Q; auto. apply Z.eqb_eq in Q. congruence.
              * left. rewrite nth_snoc_old; auto. eapply nth_lt; eauto.
            + injection Q as <- <- <-. right. split; auto.
          - rewrite map_app. cbn [map place_of fst]. apply (NoDup_Add (a := s) (l := map place_of (fwd st))); [|split; auto].
            + rewrite <- (app_nil_r (map place_of (fwd st))) at 1. apply Add_app.
            + intro Q. apply in_map_iff in Q. destruct Q as ([[y mm] d] & Q1 & Q2). cbn in Q1. subst y. specialize (LF _ _ _ Q2). lia.
          - intro mm. cbn [In]. rewrite a6. split.
            + intros [<-|(x & Hx)]; [exists s; apply in_app_iff; right; left; reflexivity|exists x; apply in_app_iff; left; auto].
            + intros (x & Hx). apply in_app_iff in Hx. destruct Hx as [Hx|[Q|[]]]; [right; eauto|left; congruence]. }
        eexists _, _, _. split; [|split; [apply (finish_ok n s KOther st3 l o (m :: w) HK)|reflexivity]].
        split; [exact F|]. exists KOther. split; [reflexivity|]. split; [reflexivity|]. right. exists m. split; [reflexivity|]. split; [exact Km|]. split; [exact Cm|]. split; [reflexivity|].
        rewrite FL, EF. unfold st2. cbn [fwd]. rewrite app_length. cbn. lia.
    + intros l' w' c' (_ & k' & Q & -> & H). rewrite FE. assert (k' = k) as -> by congruence. destruct H as [(LT & _)|(m & -> & Km & Cm & _)]; [apply B2; exact LT|].
      apply B3. exists m. auto.
Qed.
Lemma step_ok : forall d st l o w, J st l o w ->
  (errs (declare d st) = errs st -> exists l' w' c', step_rule o l w (length (fwd st)) d l' w' c' /\ J (declare d st) l' o w' /\ c' = length (fwd (declare d st))) /\
  (forall l' w' c', step_rule o l w (length (fwd st)) d l' w' c' -> errs (declare d st) = errs st).
Proof.
  intros [n|n t|ns t] st l o w HJ; [|apply step_type; auto|].
  - destruct (inserts_ok [n] st l o w HJ) as [A B]. cbn [fold_left fresh_all entered] in *. change (declare (DConst n) st) with (insert n OOther st). split.
    + intro E. destruct (A E) as ([F _] & HJ' & Q1 & Q2 & Q3). exists ((n, None) :: l), w, (length (fwd st)). split; [split; auto|]. split; [exact HJ'|]. congruence.
    + intros l' w' c' (F & _). apply B. auto.
  - destruct (inserts_ok ns st l o w HJ) as [A B]. cbv zeta in *. pose proof (more_inserts ns st) as M1. cbn [declare].
    set (st1 := fold_left (fun st n => insert n OOther st) ns st) in *.
    assert (Type_ t LVar None st1 = sub t LVar None st1) as ET. { unfold Type_, TypeDecl, sub. destruct (hdr t LVar None st1). reflexivity. }
    rewrite ET. clear ET. pose proof (more_sub t LVar None st1 (more_body t)) as M2.
    assert (errs st1 = errs st -> (errs (fst (sub t LVar None st1)) = errs st1 -> legal_type (entered l ns, o) None t /\
        subpost (heap st1) None KOther (entered l ns, o) (loc st1) (out st1) t LVar None st1 (fst (sub t LVar None st1)) (snd (sub t LVar None st1))) /\
        (legal_type (entered l ns, o) None t -> errs (fst (sub t LVar None st1)) = errs st1)) as SUB.
    { intro E. destruct (A E) as (_ & HJ1 & _). pose proof HJ1 as [a0 a1 a2 a3 a3o a4 a5 a6].
      assert (forall m, entry (heap st1) None None KOther (entered l ns, o) (loc st1) (out st1) m) as ENT.
      { apply (names_find (heap st1) (heap st1)); auto. intros s k Hk Hp. eapply J_named; eauto. }
      assert (forall m, @None name = Some m -> exists x, @None nat = Some x /\ find (loc st1) (out st1) m = Some (OTyp x)) as OWN by discriminate.
      apply (sub_ok (heap st1) None None KOther (entered l ns, o) (loc st1) (out st1) ENT OWN).
      - apply all_bodies; auto.
      - right. reflexivity.
      - split; [|split; [exact a0|split; [exact I|discriminate]]]. unfold inv. repeat split; auto; discriminate. }
    assert (fst (sub t LVar None st1) = let '(st, r) := hdr t LVar None st1 in chkptr r (body t r None st)) as EF by (unfold sub; destruct (hdr t LVar None st1); reflexivity).
    rewrite <- EF in M2. clear EF. destruct (sub t LVar None st1) as [st2 s]. cbn [fst snd] in *.
    destruct (is_dyn st2 s) eqn:D.
    + split.
      * intro E. exfalso. revert E. apply err_ne. eapply more_trans; eauto.
      * intros l' w' c' (F & LT & NK & _). exfalso. pose proof (B F) as E1. destruct (SUB E1) as [SA SB]. destruct (SA (SB LT)) as [_ (_ & _ & _ & _ & _ & _ & (k & K1 & K2) & _)].
        apply is_dyn_kind in D. congruence.
    + split.
      * intro E. destruct (more_squeeze _ _ _ M1 M2 E) as [E1 E2]. destruct (A E1) as (F & HJ1 & Q1 & Q2 & Q3). destruct (SUB E1) as [SA _].
        destruct (SA E2) as [LT (R1 & R2 & R3 & R4 & R5 & R6 & (k & K1 & K2) & R8 & R9 & R10)].
        exists (entered l ns), w, (length (fwd st)). split; [|split; [|congruence]].
        { split; [auto|]. split; [auto|]. split; [|auto]. rewrite K1. intro Q. injection Q as ->. apply is_dyn_kind in K2. congruence. }
        pose proof R1 as (V1 & V2 & V3 & V4 & V5 & V6).
        apply (J_extend st1 st2 (entered l ns) (entered l ns) o w (length (heap st1)) HJ1); auto.
        -- intros y Hy. destruct (R6 y Hy) as [F1 F2]. split; auto. eapply (Fin_Finite None); [discriminate|exact F1].
        -- rewrite V1. apply (names_prefix (heap st1)); auto. apply (j3 _ _ _ _ HJ1).
        -- rewrite V1. auto.
      * intros l' w' c' (F & LT & NK & _). pose proof (B F) as E1. destruct (SUB E1) as [_ SB]. rewrite (SB LT). auto.
Qed.

Lemma more_fold : forall ds st, more st (fold_left (fun st d => declare d st) ds st).
Proof. induction ds as [|d ds IH]; intro st; cbn [fold_left]; [apply more_refl|]. eapply more_trans; [apply more_declare|apply IH]. Qed.
Lemma block_ok : forall ds st l o w, J st l o w ->
  (errs (block ds st) = errs st -> legal o l w (length (fwd st)) ds /\ exists l', J (block ds st) l' o []) /\
  (legal o l w (length (fwd st)) ds -> errs (block ds st) = errs st).
Proof.
  unfold block. induction ds as [|d ds IH]; intros st l o w HJ; cbn [fold_left errs].
  - cbn [legal]. pose proof HJ as [a0 a1 a2 a3 a3o a4 a5 a6].
    assert (w = [] <-> filter unresolved (fwd st) = []) as WF.
    { split.
      - intros ->. destruct (filter unresolved (fwd st)) as [|[[x n] d] r] eqn:E; auto. exfalso.
        assert (In (x, n, d) (filter unresolved (fwd st))) as Q by (rewrite E; left; reflexivity). apply filter_In in Q. destruct Q as [Q1 Q2]. destruct d; [discriminate|]. apply (proj2 (a6 n)). eauto.
      - intros E. destruct w as [|n w]; auto. exfalso. destruct (proj1 (a6 n) (or_introl eq_refl)) as (x & Hx).
        assert (In (x, n, false) (filter unresolved (fwd st))) as Q by (apply filter_In; auto). rewrite E in Q. destruct Q. }
    split.
    + intro E. assert (filter unresolved (fwd st) = []) as FE. { destruct (filter unresolved (fwd st)); auto. exfalso. apply (f_equal (@length Z)) in E. cbn [map app length] in E. rewrite app_length in E. lia. }
      assert (w = []) as -> by (apply WF; auto). split; auto. exists l. destruct HJ. constructor; auto.
    + intro E. apply WF in E. rewrite E. reflexivity.
  - pose proof (more_declare d st) as M1. pose proof (more_fold ds (declare d st)) as M2. destruct (step_ok d st l o w HJ) as [SA SB].
    set (st' := fold_left (fun st d => declare d st) ds (declare d st)) in *.
    split.
    + intro E. assert (more (declare d st) (mkst (heap st') (loc st') (out st') (fwd st') (map (fun _ => 128%Z) (filter unresolved (fwd st')) ++ errs st'))) as M3.
      { destruct M2 as [e2 E2]. exists (map (fun _ => 128%Z) (filter unresolved (fwd st')) ++ e2). cbn [errs]. rewrite E2, app_assoc. reflexivity. }
      destruct (more_squeeze _ _ _ M1 M3 E) as [E1 E2]. destruct (SA E1) as (l' & w' & c' & R & HJ' & ->).
      destruct (IH _ _ _ _ HJ') as [IA _]. destruct (IA E2) as [L HJ2]. split; [|exact HJ2]. apply legal_step. eauto.
    + intro L. apply legal_step in L. destruct L as (l' & w' & c' & R & L). pose proof (SB _ _ _ R) as E1. destruct (SA E1) as (l2 & w2 & c2 & R2 & HJ' & ->).
      destruct (step_fun _ _ _ _ _ _ _ _ _ _ _ R R2) as (-> & -> & ->). destruct (IH _ _ _ _ HJ') as [_ IB]. rewrite <- E1. apply IB. exact L.
Qed.
