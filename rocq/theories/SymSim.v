(** Symbol files: the invariant of reading and what one step of reading leaves unchanged. *)
From Verif Require Import Base ScopeModel ScopeProps SymModel SymBytes SymSpec SymCount.

Definition midx (r : rd) (n : name) : option nat := mod_index n (mods r) 0.
Definition mname (r : rd) (m : nat) : option name := option_map fst (nth_error (mods r) m).
Definition lookup (r : rd) (mn n : name) : option obj :=
  match midx r mn with Some m => match nth_error (mods r) m with Some (_, t) => find n t | None => None end | None => None end.

Lemma midx_mname : forall r n m, midx r n = Some m -> mname r m = Some n.
Proof. intros r n m E. unfold midx in E. apply mod_index_nth in E as (t & E). unfold mname. rewrite Nat.sub_0_r in E. rewrite E. reflexivity. Qed.
Lemma midx_inj : forall r n n' m, midx r n = Some m -> midx r n' = Some m -> n = n'.
Proof. intros r n n' m E E'. apply midx_mname in E. apply midx_mname in E'. congruence. Qed.

Lemma NoDup_app_comm_cons : forall (A : Type) (l : list A) x, ~ In x l /\ NoDup l -> NoDup (l ++ [x]).
Proof.
  induction l as [| a l IH]; intros x [N D]; cbn [app]; [constructor; [intros [] | constructor] |]. apply NoDup_cons_iff in D as [D1 D2].
  constructor; [| apply IH; split; [intros I; apply N; right; exact I | exact D2]]. intros I. apply in_app_or in I as [I | [I | []]]; [tauto |]. apply N. left. congruence.
Qed.

Lemma Ok_pair : forall (A B : Type) (a c : A) (b d : B), Ok (a, b) = Ok (c, d) -> a = c /\ b = d.
Proof. intros A B a c b d E. inversion E. split; reflexivity. Qed.

Section Sim.
Variable g : graph.
Variable H : fld -> list Z.
Variable self : name.
(** Types the client knows already, by module and name. *)
Variable K : nat -> option nat.
(** All module names. *)
Variable Un : list name.
(** The number of types of the client. *)
Variable L0 : nat.
Hypothesis WF : wf g H.
Hypothesis KN : forall i, K i <> None -> sname (str_of g i) <> [].
Hypothesis UnN : (length Un <= 64)%nat.
Hypothesis UnG : incl (modnames g) Un.
Hypothesis NotSelf : ~ In self (modnames g).

Local Notation sname_ i := (sname (str_of g i)).

(** ** Modules *)
Record modsim (w : wst) (r : rd) : Prop := mkms {
  ms_nofm : nofm r = wnofm w /\ 0 <= wnofm w;
  ms_loc : forall m k, wloc w m = Some k -> 0 <= k < wnofm w /\ exists gm, glb r k = Some gm /\ midx r (nth m (modnames g) []) = Some gm;
  ms_nodup : NoDup (map fst (mods r));
  ms_incl : incl (map fst (mods r)) Un;
  ms_at : forall m n t, nth_error (mods r) m = Some (n, t) -> find AT t = None }.

Lemma lookup_mods : forall r r', mods r' = mods r -> (forall mn n, lookup r' mn n = lookup r mn n) /\ (forall n, midx r' n = midx r n) /\ (forall m, mname r' m = mname r m).
Proof. intros r r' E. unfold lookup, midx, mname. rewrite E. auto. Qed.
Lemma lookup_new_mod : forall r n, midx r n = None -> forall mn k, lookup (set_mods r (mods r ++ [(n, Leaf)])) mn k = lookup r mn k.
Proof.
  intros r n E mn k. unfold lookup, midx in *. cbn [set_mods mods]. destruct (list_eq_dec Z.eq_dec mn n) as [-> | D].
  - rewrite E, (mod_index_app_none _ _ 0 Leaf E). cbn [Nat.add]. rewrite nth_error_app2, Nat.sub_diag by lia. reflexivity.
  - rewrite mod_index_app_other by exact D. destruct (mod_index mn (mods r) 0) as [m |] eqn:M; [| reflexivity].
    pose proof (mod_index_nth _ _ _ _ M) as (t & M'). rewrite Nat.sub_0_r in M'. rewrite nth_error_app1; [reflexivity |]. apply nth_error_Some. congruence.
Qed.

Lemma InMod_ok : forall w r m b w' l, (m < length (modnames g))%nat -> modsim w r -> OutMod g m w = Ok (b, w') -> inp r = b ++ l -> wnofm w < 1000 ->
  exists gm r', InMod self r = Ok (gm, r') /\ inp r' = l /\ eof r' = eof r /\ tys r' = tys r /\ nofr r' = nofr r /\ refs r' = refs r /\ modsim w' r' /\
    midx r' (nth m (modnames g) []) = Some gm /\ (forall mn n, lookup r' mn n = lookup r mn n) /\ (forall n k, midx r n = Some k -> midx r' n = Some k) /\ (forall k n, mname r k = Some n -> mname r' k = Some n) /\
    wref w' = wref w /\ wnext w' = wnext w /\ wnofm w <= wnofm w' <= wnofm w + 1.
Proof.
  intros w r m b w' l ML_ [[MN M0] ML MD MI MA] E I B. unfold OutMod in E. unfold InMod.
  pose proof (nth_In (modnames g) [] ML_) as IN. destruct (wloc w m) as [k |] eqn:W.
  - apply Ok_pair in E as [<- <-]. destruct (ML _ _ W) as (KB & gm & G & X). rewrite (SymRInt_num r (- k) l I) by (apply in_int32; lia). cbn [bind].
    exists gm, (set_inp r l false). split.
    { destruct (Z.eqb_spec (- k) 0) as [Z0 | Z0].
      - cbn [set_inp glb]. replace 0 with k by lia. rewrite G. reflexivity.
      - destruct (Z.eqb_spec (- k) 16); [lia |]. cbn [set_inp glb]. rewrite Z.opp_involutive, G. reflexivity. }
    rewrite set_inp_false. cbn [inp eof tys nofr refs]. conjs; auto; try lia.
    constructor; cbn [nofm mods glb]; auto.
  - apply Ok_pair in E as [<- <-]. rewrite <- app_assoc in I. rewrite (SymRInt_num r 16 _ I) by (apply in_int32; lia). cbn [bind].
    change (16 =? 0) with false. change (16 =? 16) with true. cbn iota.
    rewrite (SymRName_out _ (nth m (modnames g) []) l); [| rewrite set_inp_false; reflexivity | apply (proj1 (Forall_forall _ _) (proj2 (wf_mods _ _ WF)) _ IN)]. cbn [bind].
    set (n := nth m (modnames g) []) in *. rewrite !set_inp_false. cbn [inp eof tys mods nofr refs nofm glb].
    destruct (list_eq_dec Z.eq_dec n self) as [Q | _]; [exfalso; apply NotSelf; rewrite <- Q; exact IN |].
    destruct (mod_index n (mods r) 0) as [gm |] eqn:MX.
    + eexists gm, _. split; [reflexivity |]. cbn [add_glb inp eof tys mods nofr refs nofm glb wref wnext wnofm wloc]. conjs; auto; try lia.
      constructor; cbn [add_glb nofm mods glb wnofm wloc]; auto; [lia |]. intros m' k W'. unfold upd in W'. destruct (Nat.eqb_spec m' m) as [-> | D].
      * inversion W'; subst k. split; [lia |]. exists gm. rewrite MN, Z.eqb_refl. split; [reflexivity |]. exact MX.
      * destruct (ML _ _ W') as (KB & gm' & G & X). split; [lia |]. exists gm'. replace (k =? nofm r) with false by lia. split; [exact G | exact X].
    + pose proof (proj1 (mod_index_none _ _ _) MX) as NI.
      assert (L : (length (mods r) < 64)%nat).
      { assert (NoDup (n :: map fst (mods r))) as ND by (constructor; assumption).
        pose proof (NoDup_incl_length (l' := Un) ND) as Q. cbn [length] in Q. rewrite map_length in Q. enough (S (length (mods r)) <= length Un)%nat by lia. apply Q.
        intros x [<- | I0]; [apply UnG, IN | apply MI, I0]. }
      cbn zeta. replace (length (mods r) <? 64)%nat with true by (symmetry; apply Nat.ltb_lt; exact L).
      eexists (length (mods r)), _. split; [reflexivity |]. cbn [add_glb set_mods inp eof tys mods nofr refs nofm glb wref wnext wnofm wloc]. conjs; auto; try lia.
      * constructor; cbn [add_glb set_mods nofm mods glb wnofm wloc]; auto; [lia | | | |].
        -- intros m' k W'. unfold upd in W'. unfold midx in *. cbn [mods]. destruct (Nat.eqb_spec m' m) as [-> | D].
           ++ inversion W'; subst k. split; [lia |]. exists (length (mods r)). rewrite MN, Z.eqb_refl. split; [reflexivity |]. apply (mod_index_app_none _ _ 0 Leaf MX).
           ++ destruct (ML _ _ W') as (KB & gm' & G & X). split; [lia |]. exists gm'. replace (k =? nofm r) with false by lia. split; [exact G | apply mod_index_app, X].
        -- rewrite map_app. cbn [map fst]. apply NoDup_app_comm_cons. exact (conj NI MD).
        -- rewrite map_app. cbn [map fst]. intros x I0. apply in_app_or in I0 as [I0 | [<- | []]]; [apply MI, I0 | apply UnG, IN].
        -- intros m' n' t' N. destruct (Nat.lt_ge_cases m' (length (mods r))) as [Lm | Lm].
           ++ rewrite nth_error_app1 in N by exact Lm. apply (MA _ _ _ N).
           ++ rewrite nth_error_app2 in N by exact Lm. destruct (m' - length (mods r))%nat as [| q]; cbn [nth_error] in N; [inversion N; subst; reflexivity | destruct q; discriminate].
      * unfold midx. cbn [mods]. apply (mod_index_app_none _ _ 0 Leaf MX).
      * intros mn k. apply (lookup_new_mod r n MX mn k).
      * intros n' k X. unfold midx in *. cbn [mods]. apply mod_index_app, X.
      * intros k n' X. unfold mname in *. cbn [add_glb set_mods mods]. rewrite nth_error_app1; [exact X |]. apply nth_error_Some. destruct (nth_error (mods r) k); [discriminate | cbn in X; discriminate].
Qed.

Lemma upd_tree : forall r gm mn t t', midx r mn = Some gm -> nth_error (mods r) gm = Some (mn, t) ->
  let r' := set_mods r (upd_nth (mods r) gm (mn, t')) in
  (forall n, midx r' n = midx r n) /\ (forall m, mname r' m = mname r m) /\ map fst (mods r') = map fst (mods r) /\
  (forall mn' n, lookup r' mn' n = if list_eq_dec Z.eq_dec mn' mn then find n t' else lookup r mn' n) /\ (forall n, lookup r mn n = find n t) /\
  ((forall m n t, nth_error (mods r) m = Some (n, t) -> find AT t = None) -> find AT t' = None -> forall m n t, nth_error (mods r') m = Some (n, t) -> find AT t = None).
Proof.
  intros r gm mn t t' X N r'.
  assert (MI : forall n, midx r' n = midx r n) by (intros n; unfold midx, r'; cbn [set_mods mods]; apply (mod_index_upd _ _ _ _ _ _ _ N)).
  conjs; auto.
  - intros m. unfold mname, r'. cbn [set_mods mods]. destruct (Nat.eq_dec gm m) as [<- | D]; [rewrite (upd_nth_same _ _ _ _ _ N), N; reflexivity | rewrite upd_nth_other by exact D; reflexivity].
  - unfold r'. cbn [set_mods mods]. apply (map_fst_upd _ _ _ _ _ N).
  - intros mn' n. unfold lookup. rewrite MI. destruct (list_eq_dec Z.eq_dec mn' mn) as [-> | D].
    + rewrite X. unfold r'. cbn [set_mods mods]. rewrite (upd_nth_same _ _ _ _ _ N). reflexivity.
    + destruct (midx r mn') as [m |] eqn:M; [| reflexivity]. unfold r'. cbn [set_mods mods]. rewrite upd_nth_other; [reflexivity |]. intros <-. apply D. apply (midx_inj _ _ _ _ M X).
  - intros n. unfold lookup. rewrite X, N. reflexivity.
  - intros A F m n t0 E. unfold r' in E. cbn [set_mods mods] in E. destruct (Nat.eq_dec gm m) as [<- | D]; [rewrite (upd_nth_same _ _ _ _ _ N) in E; inversion E; subst; exact F | rewrite upd_nth_other in E by exact D; apply (A _ _ _ E)].
Qed.
Lemma midx_nth : forall r mn gm, midx r mn = Some gm -> exists t, nth_error (mods r) gm = Some (mn, t).
Proof. intros r mn gm E. unfold midx in E. apply mod_index_nth in E as (t & E). rewrite Nat.sub_0_r in E. eauto. Qed.
Lemma insert_named : forall w r gm mn n o, modsim w r -> midx r mn = Some gm -> n <> AT ->
  exists ms, let r' := set_mods r ms in
    insert_mod gm n n o r = Ok (lookup r mn n, r') /\ modsim w r' /\ (forall n, midx r' n = midx r n) /\ (forall m, mname r' m = mname r m) /\
    forall mn' n', lookup r' mn' n' = match lookup r mn' n' with Some b => Some b | None => if list_eq_dec Z.eq_dec mn' mn then if list_eq_dec Z.eq_dec n' n then Some o else None else None end.
Proof.
  intros w r gm mn n o [[MN M0] ML MD MI MA] X NA. destruct (midx_nth _ _ _ X) as (t & N). unfold insert_mod. rewrite N.
  destruct (upd_tree r gm mn t (fst (InsertImport n n o t)) X N) as (U1 & U2 & U3 & U4 & U5 & U6).
  pose proof (insert_old _ t n n o) as IO. rewrite (U5 n). destruct (InsertImport n n o t) as [t' old] eqn:IE. cbn [fst snd] in *. subst old.
  exists (upd_nth (mods r) gm (mn, t')). split; [reflexivity |].
  assert (FI : forall n', find n' t' = match find n' t with Some b => Some b | None => if list_eq_dec Z.eq_dec n' n then Some o else None end).
  { intros n'. pose proof (find_insert _ t n o n') as F. rewrite IE in F. exact F. }
  conjs; auto.
  - constructor; auto.
    + intros m k W. destruct (ML _ _ W) as (B & gm' & G & Y). split; [exact B |]. exists gm'. rewrite U1. auto.
    + rewrite U3. exact MD.
    + rewrite U3. exact MI.
    + apply U6; [exact MA |]. rewrite FI, (MA _ _ _ N). destruct (list_eq_dec Z.eq_dec AT n); [congruence | reflexivity].
  - intros mn' n'. rewrite U4. destruct (list_eq_dec Z.eq_dec mn' mn) as [-> | D]; [rewrite U5; apply FI | destruct (lookup r mn' n'); reflexivity].
Qed.
Lemma insert_anon : forall w r gm mn o, modsim w r -> midx r mn = Some gm ->
  exists ms, let r' := set_mods r ms in
    insert_mod gm AT [] o r = Ok (None, r') /\ modsim w r' /\ (forall n, midx r' n = midx r n) /\ (forall m, mname r' m = mname r m) /\
    forall mn' n', n' <> [] -> lookup r' mn' n' = lookup r mn' n'.
Proof.
  intros w r gm mn o [[MN M0] ML MD MI MA] X. destruct (midx_nth _ _ _ X) as (t & N). unfold insert_mod. rewrite N.
  destruct (upd_tree r gm mn t (fst (InsertImport AT [] o t)) X N) as (U1 & U2 & U3 & U4 & U5 & U6).
  pose proof (insert_old _ t AT [] o) as IO. rewrite (MA _ _ _ N) in IO. destruct (InsertImport AT [] o t) as [t' old] eqn:IE. cbn [fst snd] in *. subst old.
  exists (upd_nth (mods r) gm (mn, t')). split; [reflexivity |].
  assert (FI : forall n', n' <> [] -> find n' t' = find n' t).
  { intros n' D. pose proof (find_insert_anon _ t AT o n' D) as F. rewrite IE in F. exact F. }
  conjs; auto.
  - constructor; auto.
    + intros m k W. destruct (ML _ _ W) as (B & gm' & G & Y). split; [exact B |]. exists gm'. rewrite U1. auto.
    + rewrite U3. exact MD.
    + rewrite U3. exact MI.
    + apply U6; [exact MA |]. rewrite FI by discriminate. apply (MA _ _ _ N).
  - intros mn' n' D. rewrite U4. destruct (list_eq_dec Z.eq_dec mn' mn) as [-> | Q]; [rewrite U5; apply FI, D | reflexivity].
Qed.

(** ** Types *)
Definition ident (r : rd) (i : nat) (x : istr) : Prop := iname x = sname_ i /\ midx r (modname g i) = Some (imno x).
Definition rtype := nat -> option nat.
(** What is known of the entry of a written type that may not be complete yet: [E] are those whose size is not known, [X] the one whose base type is not. *)
Definition std (X : option nat) (E : nat -> Prop) (rho : rtype) (i : nat) (x : istr) : Prop :=
  iform x = form_of (sshape (str_of g i)) /\ icomp x = comp_of (sshape (str_of g i)) /\
  (~ E i -> isize x = ssize (str_of g i) /\ (is_dyn g (TS i) = true -> Dims g i (inum x))) /\
  (X <> Some i -> match sshape (str_of g i) with
                  | Rec None _ _ _ _ => ibase x = None
                  | Rec (Some b) _ _ _ _ => exists b', ibase x = Some b' /\ tcorr rho b b'
                  | _ => True
                  end).
Record typsim (w : wst) (r : rd) (rho : rtype) (P : nat -> istr -> Prop) : Prop := mkts {
  ts_next : nofr r = wnext w /\ 14 <= wnext w;
  ts_dom : forall i, wref w i = None <-> rho i = None;
  ts_ref : forall i s k, rho i = Some s -> wref w i = Some k -> 14 <= k < wnext w /\ refs r k = Some (TS s);
  ts_slot : forall i s, rho i = Some s -> exists x, nth_error (tys r) s = Some x /\ ident r i x /\ P i x;
  ts_inj : forall i j s, rho i = Some s -> rho j = Some s -> i = j;
  ts_K : forall i s, rho i = None -> K i = Some s -> exists x, nth_error (tys r) s = Some x /\ ident r i x /\
         isize x = ssize (str_of g i) /\ iform x = form_of (sshape (str_of g i)) /\ icomp x = comp_of (sshape (str_of g i));
  ts_same : forall i s s', rho i = Some s -> K i = Some s' -> s = s';
  ts_name : forall i, sname_ i <> [] ->
         match (match rho i with Some s => Some s | None => K i end) with
         | Some s => exists o, lookup r (modname g i) (sname_ i) = Some o /\ okind o = KTyp (TS s)
         | None => lookup r (modname g i) (sname_ i) = None
         end;
  ts_L : (forall s, (s < L0)%nat -> nth_error (tys r) s <> None) /\ forall i s, rho i = Some s -> K i = Some s \/ (L0 <= s)%nat }.
Record sim (w : wst) (r : rd) (rho : rtype) (P : nat -> istr -> Prop) : Prop := mksim {
  sim_m : modsim w r;
  sim_t : typsim w r rho P;
  sim_b : wnofm w <= wnext w < maxStruct }.

(** What a part of the reading has done: slots in [O] are left out. *)
Record step (O : nat -> Prop) (r : rd) (rho : rtype) (dst : option (nat * ty)) (r' : rd) (rho' : rtype) : Prop := mkstep {
  p_rho : forall i s, rho i = Some s -> rho' i = Some s;
  p_frame : forall s x, nth_error (tys r) s = Some x -> ~ O s -> (forall i, rho' i = Some s -> rho i = Some s) ->
            nth_error (tys r') s = Some (match dst with Some (d, t) => if Nat.eqb d s then set_base x (Some t) else x | None => x end);
  p_midx : forall n m, midx r n = Some m -> midx r' n = Some m;
  p_mname : forall m n, mname r m = Some n -> mname r' m = Some n;
  p_look : forall mn n o, n <> [] -> lookup r mn n = Some o -> lookup r' mn n = Some o;
  p_inv : forall mn n o, n <> [] -> lookup r' mn n = Some o -> lookup r mn n = Some o \/ (ovis o = Internal /\ exists i, rho i = None /\ rho' i <> None /\ mn = modname g i /\ n = sname_ i);
  p_new : forall i s, rho i = None -> rho' i = Some s -> ~ O s -> exists x, nth_error (tys r') s = Some x /\ corr g H rho' (mname r') i x;
  p_eof : eof r' = eof r }.

Lemma tcorr_mono : forall rho rho' t t', (forall i s, rho i = Some s -> rho' i = Some s) -> tcorr rho t t' -> tcorr rho' t t'.
Proof. intros rho rho' [| | | i] t' M; cbn [tcorr]; auto. intros (s & E & ->). exists s. auto. Qed.
Lemma Forall2_mono : forall (A B : Type) (P Q : A -> B -> Prop) l l', (forall a b, P a b -> Q a b) -> Forall2 P l l' -> Forall2 Q l l'.
Proof. intros A B P Q l l' M F. induction F; constructor; auto. Qed.
Lemma scorr_mono : forall rho rho' s s', (forall i k, rho i = Some k -> rho' i = Some k) -> scorr rho s s' -> scorr rho' s s'.
Proof.
  intros rho rho' s s' M [A B]. split; [apply (tcorr_mono _ _ _ _ M A) |]. revert B. apply Forall2_mono. intros p p' (P1 & P2 & P3 & P4). repeat split; auto. apply (tcorr_mono _ _ _ _ M P2).
Qed.
Lemma fcorr_mono : forall rho rho' s s', (forall i k, rho i = Some k -> rho' i = Some k) -> fcorr rho s s' -> fcorr rho' s s'.
Proof. intros rho rho' f f' M (A & B & C & D). repeat split; auto. apply (tcorr_mono _ _ _ _ M C). Qed.
Lemma tpcorr_mono : forall rho rho' s s', (forall i k, rho i = Some k -> rho' i = Some k) -> tpcorr rho s s' -> tpcorr rho' s s'.
Proof. intros rho rho' f f' M (A & B & C & D). repeat split; auto; apply (scorr_mono _ _ _ _ M C). Qed.
Lemma corr_mono : forall rho rho' mn mn' i x, (forall i k, rho i = Some k -> rho' i = Some k) -> (forall m n, mn m = Some n -> mn' m = Some n) -> corr g H rho mn i x -> corr g H rho' mn' i x.
Proof.
  intros rho rho' mn mn' i x M M' C. unfold corr in *. destruct C as (C1 & C2 & C3 & C4 & C5 & C6 & C7). conjs; auto.
  destruct (sshape (str_of g i)) as [b | sg | b n | b | base al n fs ps].
  - destruct C7 as (b' & E & T). exists b'. split; [exact E | apply (tcorr_mono _ _ _ _ M T)].
  - destruct C7 as (b' & E & T). exists b'. split; [exact E | apply (scorr_mono _ _ _ _ M T)].
  - destruct C7 as (N & b' & E & T). split; [exact N |]. exists b'. split; [exact E | apply (tcorr_mono _ _ _ _ M T)].
  - destruct C7 as (N & b' & E & T). split; [exact N |]. exists b'. split; [exact E | apply (tcorr_mono _ _ _ _ M T)].
  - destruct C7 as (B & A & N & D & F & ps' & T & L). conjs; auto.
    + destruct base as [b |]; [| exact B]. destruct B as (b' & E & T'). exists b'. split; [exact E | apply (tcorr_mono _ _ _ _ M T')].
    + revert F. apply Forall2_mono. intros a b. apply fcorr_mono, M.
    + exists ps'. split; [| exact L]. revert T. apply Forall2_mono. intros a b. apply tpcorr_mono, M.
Qed.
Lemma std_mono : forall X E rho rho' i x, (forall i k, rho i = Some k -> rho' i = Some k) -> std X E rho i x -> std X E rho' i x.
Proof.
  intros X E rho rho' i x M (A & B & C & D). unfold std. conjs; auto. intros N. specialize (D N). destruct (sshape (str_of g i)); auto. destruct base as [b |]; auto.
  destruct D as (b' & F & T). exists b'. split; [exact F | apply (tcorr_mono _ _ _ _ M T)].
Qed.

Lemma step_refl : forall O r rho, step O r rho None r rho.
Proof. intros. constructor; auto. intros i s A B. congruence. Qed.
Lemma step_trans : forall O d r rho r1 rho1 r2 rho2, (forall i j s, rho2 i = Some s -> rho2 j = Some s -> i = j) ->
  step O r rho d r1 rho1 -> step O r1 rho1 None r2 rho2 -> step O r rho d r2 rho2.
Proof.
  intros O d r rho r1 rho1 r2 rho2 INJ [A1 A2 A3 A4 A5 A6 A7 A8] [B1 B2 B3 B4 B5 B6 B7 B8]. constructor; auto.
  - intros mn n o D L. destruct (B6 _ _ _ D L) as [L1 | (V & i & R1 & R2 & E1 & E2)].
    + destruct (A6 _ _ _ D L1) as [Lx | (V & i & R1 & R2 & E1 & E2)]; [left; exact Lx |]. right. split; [exact V |]. exists i. conjs; auto. destruct (rho1 i) as [s |] eqn:R; [| contradiction]. rewrite (B1 _ _ R). discriminate.
    + right. split; [exact V |]. exists i. conjs; auto. destruct (rho i) as [s |] eqn:R; [| reflexivity]. rewrite (A1 _ _ R) in R1. discriminate.
  - intros i s R R2 N. destruct (rho1 i) as [s1 |] eqn:R1.
    + pose proof (B1 _ _ R1) as Q. rewrite R2 in Q. inversion Q; subst s1. destruct (A7 _ _ R R1 N) as (x & E & C). exists x. split.
      * apply (B2 s x E N). intros j J. rewrite (INJ j i s J R2). exact R1.
      * apply (corr_mono _ _ _ _ _ _ B1 B4 C).
    + apply (B7 _ _ R1 R2 N).
  - congruence.
Qed.
Lemma step_weaken : forall (O : nat -> Prop) d t r rho r1 rho1, O d -> step (fun _ => False) r rho (Some (d, t)) r1 rho1 -> step O r rho None r1 rho1.
Proof.
  intros O d t r rho r1 rho1 OD [A1 A2 A3 A4 A5 A6 A7 A8]. constructor; auto.
  - intros s x E N C. specialize (A2 s x E (fun f => f) C). cbn beta iota in A2. destruct (Nat.eqb_spec d s) as [-> | D]; [contradiction | exact A2].
Qed.
Lemma step_weaken0 : forall (O : nat -> Prop) d r rho r1 rho1, step (fun _ => False) r rho d r1 rho1 -> step O r rho d r1 rho1.
Proof. intros O d r rho r1 rho1 [A1 A2 A3 A4 A5 A6 A7 A8]. constructor; auto. Qed.

(** States with the same types and modules. *)
Lemma step_same : forall O r rho r', tys r' = tys r -> mods r' = mods r -> eof r' = eof r -> step O r rho None r' rho.
Proof.
  intros O r rho r' E1 E2 E3. destruct (lookup_mods r r' E2) as (L1 & L2 & L3). constructor; auto.
  - intros s x N _ _. rewrite E1. exact N.
  - intros n m M. rewrite L2. exact M.
  - intros m n M. rewrite L3. exact M.
  - intros mn n o D L. rewrite L1. exact L.
  - intros mn n o D L. rewrite L1 in L. auto.
  - intros i s A B. congruence.
Qed.
Lemma sim_same : forall w r rho P r', tys r' = tys r -> mods r' = mods r -> nofr r' = nofr r -> refs r' = refs r -> nofm r' = nofm r -> glb r' = glb r -> sim w r rho P -> sim w r' rho P.
Proof.
  intros w r rho P r' E1 E2 E3 E4 E5 E6 [[[MN M0] ML MD MI MA] [TN TD TR TS TI TK TA TM TL] SB]. destruct (lookup_mods r r' E2) as (L1 & L2 & L3). constructor; [| | exact SB].
  - constructor; rewrite ?E2, ?E5; auto. intros m k W. destruct (ML _ _ W) as (B & gm & G & X). split; [exact B |]. exists gm. rewrite E6, L2. auto.
  - constructor; rewrite ?E3, ?E4; auto.
    + intros i s R. rewrite E1. unfold ident. rewrite L2. apply (TS _ _ R).
    + intros i s R R'. rewrite E1. unfold ident. rewrite L2. apply (TK _ _ R R').
    + intros i N. rewrite L1. apply (TM i N).
    + rewrite E1. exact TL.
Qed.
Lemma sim_weaken : forall w r rho (P P' : nat -> istr -> Prop), (forall i x, P i x -> P' i x) -> sim w r rho P -> sim w r rho P'.
Proof.
  intros w r rho P P' I [M [TN TD TR TS TI TK TA TM TL] SB]. constructor; [exact M | | exact SB]. constructor; auto. intros i s R. destruct (TS _ _ R) as (x & E & D & Q). eauto.
Qed.

(** A change of the entry of a written type. *)
Lemma change_ok : forall r s x f, nth_error (tys r) s = Some x -> change s f r = Ok (set_tys r (upd_nth (tys r) s (f x))).
Proof. intros r s x f E. unfold change. rewrite E. reflexivity. Qed.
Lemma sim_change : forall w r rho (P P' : nat -> istr -> Prop) i s x x', sim w r rho P -> rho i = Some s -> nth_error (tys r) s = Some x -> iname x' = iname x -> imno x' = imno x ->
  (ident r i x -> P i x -> P' i x') -> (forall j y, j <> i -> P j y -> P' j y) -> sim w (set_tys r (upd_nth (tys r) s x')) rho P'.
Proof.
  intros w r rho P P' i s x x' [M [TN TD TR TS TI TK TA TM TL] SB] R N E1 E2 PI PO. constructor; [| | exact SB].
  - destruct M as [MN ML MD MI MA]. constructor; auto.
  - destruct (TS _ _ R) as (x0 & N0 & ID & PX). rewrite N in N0. inversion N0; subst x0.
    constructor; auto.
    + intros j t Rj. destruct (Nat.eq_dec j i) as [-> | D].
      * rewrite R in Rj. inversion Rj; subst t. exists x'. cbn [set_tys tys]. rewrite (upd_nth_same _ _ _ _ _ N). conjs; auto. unfold ident in *. cbn [set_tys midx mods] in *. rewrite E1, E2. exact ID.
      * destruct (TS _ _ Rj) as (y & Ny & Iy & Py). exists y. cbn [set_tys tys]. rewrite upd_nth_other; [auto |]. intros <-. apply D. apply (TI _ _ _ Rj R).
    + intros j t Rj Kj. destruct (TK _ _ Rj Kj) as (y & Ny & Iy & Fy). exists y. cbn [set_tys tys]. rewrite upd_nth_other; [auto |]. intros <-. rewrite N in Ny. inversion Ny; subst y.
      destruct ID as [D1 D2]. destruct Iy as [F1 F2]. assert (i = j); [| congruence].
      apply (wf_names _ _ WF); [rewrite <- D1, F1; apply KN; congruence | congruence | apply (midx_inj _ _ _ _ D2 F2)].
    + split; [| exact (proj2 TL)]. intros t L. cbn [set_tys tys]. destruct (Nat.eq_dec s t) as [<- | D]; [rewrite (upd_nth_same _ _ _ _ _ N); discriminate | rewrite upd_nth_other by exact D; apply (proj1 TL t L)].
Qed.
Lemma step_change : forall (O : nat -> Prop) r rho s x', O s -> step O r rho None (set_tys r (upd_nth (tys r) s x')) rho.
Proof.
  intros O r rho s x' OS. constructor; auto.
  - intros t x N D _. cbn [set_tys tys]. rewrite upd_nth_other; [exact N |]. intros <-. contradiction.
  - intros i t A B. congruence.
Qed.
Lemma step_keep : forall w r rho r' rho' P d i s x, sim w r' rho' P -> step (fun _ => False) r rho d r' rho' -> rho i = Some s -> nth_error (tys r) s = Some x ->
  nth_error (tys r') s = Some (match d with Some (k, t) => if Nat.eqb k s then set_base x (Some t) else x | None => x end).
Proof.
  intros w r rho r' rho' P d i s x S ST R N. apply (p_frame _ _ _ _ _ _ ST s x N (fun f => f)). intros j J. rewrite (ts_inj _ _ _ _ (sim_t _ _ _ _ S) j i s J (p_rho _ _ _ _ _ _ ST _ _ R)). exact R.
Qed.

(** ** The head of a type *)
Definition dst_ok (X dst : option nat) (rho : rtype) (t : ty) : Prop :=
  match dst with
  | None => X = None
  | Some d => exists i, rho i = Some d /\ match X with Some x => x = i /\ exists al n fs ps, sshape (str_of g i) = Rec (Some t) al n fs ps | None => is_record g (TS i) = false end
  end.
Lemma is_record_shape : forall i, is_record g (TS i) = true <-> exists b al n fs ps, sshape (str_of g i) = Rec b al n fs ps.
Proof. intros i. unfold is_record, shape_of. destruct (sshape (str_of g i)) eqn:S; (split; [try discriminate; eauto 10 | intros (b0 & al0 & n0 & fs0 & ps0 & E); congruence]). Qed.
Lemma ok_name_AT : forall n, ok_name n -> n <> AT.
Proof. intros n (A & B & C) ->. apply C. reflexivity. Qed.

Lemma set_base_facts : forall x b, iform (set_base x b) = iform x /\ icomp (set_base x b) = icomp x /\ isize (set_base x b) = isize x /\ inum (set_base x b) = inum x /\ iname (set_base x b) = iname x /\ imno (set_base x b) = imno x.
Proof. intros. repeat split. Qed.

Lemma modsim_tys : forall w r ts, modsim w r -> modsim w (set_tys r ts).
Proof. intros w r ts [A B C D E]. constructor; auto. Qed.
(** The entry for a new type. *)
Lemma alloc_ok : forall w r rho P i gm m w1, typsim w r rho P -> modsim w1 r -> rho i = None -> m = modname g i -> midx r m = Some gm ->
  let new := length (tys r) in
  exists s x0 old ms ts, let r1 := set_mods r ms in let r2 := set_tys r1 ts in
    insert_mod gm (match sname_ i with [] => AT | _ => sname_ i end) (sname_ i) (mkobj Internal (KTyp (TS new))) r = Ok (old, r1) /\
    (match old with
     | None => Ok (new, set_tys r1 (tys r1 ++ [new_str gm (sname_ i)]))
     | Some o => match okind o with
                 | KTyp (TS j) => let* r := change j (fun x => set_pars (set_tree (set_flds (set_flag x 0) []) Leaf) []) r1 in Ok (j, r)
                 | _ => UB
                 end
     end) = Ok (s, r2) /\
    modsim w1 r2 /\ nth_error ts s = Some x0 /\ (forall t, t <> s -> nth_error ts t = nth_error (tys r) t) /\
    iname x0 = sname_ i /\ imno x0 = gm /\ iflag x0 = 0 /\ iflds x0 = [] /\ itree x0 = Leaf /\ ipars x0 = [] /\
    (icomp x0 = 1 \/ icomp x0 = comp_of (sshape (str_of g i))) /\ (isize x0 = -1 \/ isize x0 = ssize (str_of g i)) /\
    (forall j, rho j <> Some s) /\ (forall s', K i = Some s' -> s' = s) /\ (forall j, j <> i -> rho j = None -> K j <> Some s) /\
    (forall n, midx r2 n = midx r n) /\ (forall k, mname r2 k = mname r k) /\
    (forall mn n, n <> [] -> mn <> m \/ n <> sname_ i -> lookup r2 mn n = lookup r mn n) /\
    (forall mn n o, n <> [] -> lookup r mn n = Some o -> lookup r2 mn n = Some o) /\
    (sname_ i <> [] -> exists o, lookup r2 m (sname_ i) = Some o /\ okind o = KTyp (TS s) /\ (lookup r m (sname_ i) = None -> ovis o = Internal)) /\
    (K i = Some s \/ (L0 <= s)%nat).
Proof.
  intros w r rho P i gm m w1 T M R -> X new. destruct T as [TN TD TR TS_ TI TK TA TM TL].
  assert (NS : forall j, rho j <> Some new).
  { intros j Q. destruct (TS_ _ _ Q) as (x & E & _). assert (nth_error (tys r) new <> None) by congruence. apply nth_error_Some in H0. unfold new in H0. lia. }
  assert (NK : forall j, rho j = None -> K j <> Some new).
  { intros j Rj Q. destruct (TK _ _ Rj Q) as (x & E & _). assert (nth_error (tys r) new <> None) by congruence. apply nth_error_Some in H0. unfold new in H0. lia. }
  assert (NL : (L0 <= new)%nat).
  { destruct (Nat.le_gt_cases L0 new) as [| L]; [assumption |]. exfalso. apply (proj1 TL new L). apply nth_error_None. unfold new. lia. }
  destruct (list_eq_dec Z.eq_dec (sname_ i) []) as [Z0 | Z0].
  - rewrite Z0. destruct (insert_anon w1 r gm (modname g i) (mkobj Internal (KTyp (TS new))) M X) as (ms & E & M1 & I1 & I2 & I3).
    assert (K i = None) as KI. { destruct (K i) eqn:Q; [| reflexivity]. exfalso. apply (KN i); [congruence | exact Z0]. }
    exists new, (new_str gm []), None, ms, (tys r ++ [new_str gm []]). cbn zeta. conjs; auto.
    + apply modsim_tys, M1.
    + unfold new. rewrite nth_error_app2, Nat.sub_diag by lia. reflexivity.
    + intros t D. destruct (Nat.lt_ge_cases t new) as [L | L]; [apply nth_error_app1, L |]. rewrite nth_error_app2 by exact L. rewrite (proj2 (nth_error_None (tys r) t)) by exact L.
      destruct (t - length (tys r))%nat as [| q] eqn:Q; [unfold new in *; lia | destruct q; reflexivity].
    + intros s' Q. congruence.
    + intros mn n D _. change (lookup (set_mods r ms) mn n = lookup r mn n). apply I3, D.
    + intros mn n o D L. change (lookup (set_mods r ms) mn n = Some o). rewrite I3 by exact D. exact L.
    + intros Q. contradiction.
  - assert (SN : (match sname_ i with [] => AT | _ => sname_ i end) = sname_ i) by (destruct (sname_ i); [contradiction | reflexivity]). rewrite SN.
    pose proof (wf_strs _ _ WF i) as ([Q | OKN] & _); [contradiction |].
    destruct (insert_named w1 r gm (modname g i) (sname_ i) (mkobj Internal (KTyp (TS new))) M X (ok_name_AT _ OKN)) as (ms & E & M1 & I1 & I2 & I3).
    specialize (TM i Z0). rewrite R in TM. destruct (K i) as [s |] eqn:KI.
    + destruct TM as (o & L & OK). rewrite L in E. destruct (TK _ _ R KI) as (x & N & [D1 D2] & D3 & D4 & D5).
      exists s, (set_pars (set_tree (set_flds (set_flag x 0) []) Leaf) []), (Some o), ms, (upd_nth (tys r) s (set_pars (set_tree (set_flds (set_flag x 0) []) Leaf) [])). cbn zeta.
      assert (NS' : forall j, rho j <> Some s).
      { intros j Q. destruct (TS_ _ _ Q) as (y & Ny & [F1 F2] & _). rewrite N in Ny. inversion Ny; subst y. assert (i = j); [| congruence].
        apply (wf_names _ _ WF); [exact Z0 | congruence | apply (midx_inj _ _ _ _ D2 F2)]. }
      conjs; auto.
      * rewrite OK. rewrite (change_ok (set_mods r ms) s x _ N). reflexivity.
      * apply modsim_tys, M1.
      * apply (upd_nth_same _ _ _ _ _ N).
      * intros t D. apply upd_nth_other. congruence.
      * cbn [set_pars set_tree set_flds set_flag imno]. congruence.
      * intros s' Q. congruence.
      * intros j D Rj Q. destruct (TK _ _ Rj Q) as (y & Ny & [F1 F2] & _). rewrite N in Ny. inversion Ny; subst y. apply D. symmetry.
        apply (wf_names _ _ WF); [exact Z0 | congruence | apply (midx_inj _ _ _ _ D2 F2)].
      * intros mn n D0 D. change (lookup (set_mods r ms) mn n = lookup r mn n). rewrite I3. destruct (lookup r mn n); [reflexivity |]. destruct (list_eq_dec Z.eq_dec mn (modname g i)); [destruct (list_eq_dec Z.eq_dec n (sname_ i)); [destruct D; contradiction | reflexivity] | reflexivity].
      * intros mn n o' D L'. change (lookup (set_mods r ms) mn n = Some o'). rewrite I3, L'. reflexivity.
      * intros _. exists o. conjs; auto; [| congruence]. change (lookup (set_mods r ms) (modname g i) (sname_ i) = Some o). rewrite I3, L. reflexivity.
    + rewrite TM in E.
      exists new, (new_str gm (sname_ i)), None, ms, (tys r ++ [new_str gm (sname_ i)]). cbn zeta. conjs; auto.
      * apply modsim_tys, M1.
      * unfold new. rewrite nth_error_app2, Nat.sub_diag by lia. reflexivity.
      * intros t D. destruct (Nat.lt_ge_cases t new) as [L | L]; [apply nth_error_app1, L |]. rewrite nth_error_app2 by exact L. rewrite (proj2 (nth_error_None (tys r) t)) by exact L.
        destruct (t - length (tys r))%nat as [| q] eqn:Q; [unfold new in *; lia | destruct q; reflexivity].
      * intros s' Q. congruence.
      * intros mn n D0 D. change (lookup (set_mods r ms) mn n = lookup r mn n). rewrite I3. destruct (lookup r mn n); [reflexivity |]. destruct (list_eq_dec Z.eq_dec mn (modname g i)); [destruct (list_eq_dec Z.eq_dec n (sname_ i)); [destruct D; contradiction | reflexivity] | reflexivity].
      * intros mn n o' D L'. change (lookup (set_mods r ms) mn n = Some o'). rewrite I3, L'. reflexivity.
      * intros _. exists (mkobj Internal (KTyp (TS new))). conjs; auto. change (lookup (set_mods r ms) (modname g i) (sname_ i) = Some (mkobj Internal (KTyp (TS new)))). rewrite I3, TM.
        destruct (list_eq_dec Z.eq_dec (modname g i) (modname g i)); [| contradiction]. destruct (list_eq_dec Z.eq_dec (sname_ i) (sname_ i)); [reflexivity | contradiction].
Qed.

Definition w_new (w : wst) (i : nat) : wst := mkw (upd (wref w) i (wnext w)) (wnext w + 1) (wloc w) (wnofm w) (wcnt w).
Lemma header_ok : forall w r rho X E dst i m w1 k b rest,
  sim w r rho (std X E rho) -> dst_ok X dst rho (TS i) -> wref w i = None -> wnext w + 1 < maxStruct ->
  OutMod g (smno (str_of g i)) (w_new w i) = Ok (m, w1) ->
  inp r = num 34 ++ m ++ OutName (sname_ i) ++ (if negb (sysflag (str_of g i) =? 0) then num 35 ++ num (sysflag (str_of g i)) else []) ++ num k ++ b ++ rest ->
  36 <= k <= 40 ->
  exists s x1 r1, let rho1 := upd rho i s in
    (forall n, InStruct (S n) self dst r = let* r' := InShape (InStruct n self) n s k r1 in Ok (TS s, r')) /\
    inp r1 = b ++ rest /\ rho i = None /\ nth_error (tys r1) s = Some x1 /\
    iname x1 = sname_ i /\ midx r1 (modname g i) = Some (imno x1) /\ iflag x1 = sysflag (str_of g i) /\ iflds x1 = [] /\ itree x1 = Leaf /\ ipars x1 = [] /\
    (icomp x1 = 1 \/ icomp x1 = comp_of (sshape (str_of g i))) /\ (isize x1 = -1 \/ isize x1 = ssize (str_of g i)) /\
    sim w1 r1 rho1 (fun j y => j = i \/ std None E rho1 j y) /\
    step (eq s) r rho (option_map (fun d => (d, TS s)) dst) r1 rho1.
Proof.
  intros w r rho X E dst i m w1 k b rest SIM DST W B1 OM I KB. pose proof SIM as [M T SB].
  assert (R : rho i = None) by (apply (ts_dom _ _ _ _ T), W).
  pose proof (wf_strs _ _ WF i) as (ON & OF & _).
  (* the tag *)
  pose proof (SymRInt_num r 34 _ I ltac:(apply in_int32; lia)) as Q1.
  set (ra := set_nofr (set_inp r (m ++ OutName (sname_ i) ++ (if negb (sysflag (str_of g i) =? 0) then num 35 ++ num (sysflag (str_of g i)) else []) ++ num k ++ b ++ rest) false) (nofr r + 1)) in *.
  assert (Ma : modsim (w_new w i) ra).
  { destruct M as [MN ML MD MI MA]. constructor; auto. }
  (* the module *)
  destruct (InMod_ok (w_new w i) ra _ m w1 _ (wf_smno _ _ WF i) Ma OM eq_refl ltac:(cbn [w_new wnofm]; unfold maxStruct in *; lia)) as (gm & rb & Q2 & Ib & Eb & Tb & Nb & Rb & Mb & Xb & Lb & Xm & Nm & Wr & Wn & Wb).
  cbn [w_new wref wnext wnofm] in Wr, Wn, Wb.
  (* the name *)
  pose proof (SymRName_out rb (sname_ i) _ Ib ltac:(destruct ON as [-> | (_ & Z0 & _)]; [intros [] | exact Z0])) as Q3.
  set (rc := set_inp rb ((if negb (sysflag (str_of g i) =? 0) then num 35 ++ num (sysflag (str_of g i)) else []) ++ num k ++ b ++ rest) false) in *.
  assert (Tc : typsim w (set_nofr rc (nofr r)) rho (std X E rho)).
  { destruct T as [TN TD TR TS_ TI TK TA TM TL]. constructor; auto.
    - intros j s kk Rj Wj. destruct (TR _ _ _ Rj Wj) as [A A']. split; [exact A |]. unfold rc, set_inp, set_nofr. cbn [refs]. rewrite Rb. exact A'.
    - intros j s Rj. destruct (TS_ _ _ Rj) as (x & N & [D1 D2] & P). exists x. unfold rc, set_inp, set_nofr. cbn [tys]. rewrite Tb. conjs; auto. split; [exact D1 | apply Xm, D2].
    - intros j s Rj Kj. destruct (TK _ _ Rj Kj) as (x & N & [D1 D2] & P). exists x. unfold rc, set_inp, set_nofr. cbn [tys]. rewrite Tb. conjs; try tauto. split; [exact D1 | apply Xm, D2].
    - intros j Nj. specialize (TM j Nj). assert (LL : forall a c, lookup (set_nofr rc (nofr r)) a c = lookup r a c) by (intros a c; change (lookup rb a c = lookup r a c); rewrite Lb; reflexivity). rewrite LL. exact TM.
    - unfold rc, set_inp, set_nofr. cbn [tys]. rewrite Tb. exact TL. }
  assert (Mc : modsim w1 (set_nofr rc (nofr r))) by (destruct Mb as [MN ML MD MI MA]; constructor; auto).
  destruct (alloc_ok w (set_nofr rc (nofr r)) rho (std X E rho) i gm (modname g i) w1 Tc Mc R eq_refl Xb) as
    (s & x0 & old & ms & ts & A1 & A2 & A3 & A4 & A5 & A6 & A7 & A8 & A9 & A10 & A11 & A12 & A13 & A14 & A15 & A16 & A17 & A18 & A19 & A20 & A21 & A22).
  set (rd_ := set_tys (set_mods rc ms) ts).
  (* the destination *)
  set (dt := option_map (fun d => (d, TS s)) dst).
  assert (Ds : forall d, dst = Some d -> exists j x, rho j = Some d /\ nth_error (tys r) d = Some x /\ nth_error ts d = Some x /\ d <> s /\ j <> i).
  { intros d ->. destruct DST as (j & Rj & _). destruct (ts_slot _ _ _ _ T _ _ Rj) as (x & N & _). exists j, x.
    assert (d <> s) by (intros ->; apply (A14 j Rj)). conjs; auto; [| congruence]. rewrite A5 by assumption. unfold rc, set_inp, set_nofr. cbn [tys]. rewrite Tb. exact N. }
  assert (Q4 : exists ts', assign dst (TS s) rd_ = Ok (set_tys rd_ ts') /\ nth_error ts' s = Some x0 /\
    (forall t y, t <> s -> nth_error (tys r) t = Some y -> nth_error ts' t = Some (match dt with Some (d, b) => if Nat.eqb d t then set_base y (Some b) else y | None => y end))).
  { unfold assign, dt. destruct dst as [d |].
    - destruct (Ds d eq_refl) as (j & x & Rj & N & N' & D & D'). exists (upd_nth ts d (set_base x (Some (TS s)))). conjs.
      + apply (change_ok rd_ d x). exact N'.
      + rewrite upd_nth_other by exact D. exact A4.
      + intros t y Dt Ny. cbn [option_map]. destruct (Nat.eqb_spec d t) as [-> | Dd]; [rewrite N in Ny; inversion Ny; subst y; apply (upd_nth_same _ _ _ _ _ N') |].
        rewrite upd_nth_other by exact Dd. rewrite A5 by exact Dt. unfold rc, set_inp, set_nofr. cbn [tys]. rewrite Tb. exact Ny.
    - exists ts. conjs; auto. intros t y Dt Ny. cbn [option_map]. rewrite A5 by exact Dt. unfold rc, set_inp, set_nofr. cbn [tys]. rewrite Tb. exact Ny. }
  destruct Q4 as (ts' & Q4 & Q5 & Q6).
  set (re := set_ref (set_tys rd_ ts') (nofr r) (TS s)).
  (* the flags *)
  assert (Q7 : exists ts1 x1, let r1 := set_tys (set_inp re (b ++ rest) false) ts1 in
     (let* (tag, r) := SymRInt re in
      if tag =? 35 then let* (f, r) := SymRInt r in let* r := change s (fun x => set_flag x (wrap_s 16 f)) r in SymRInt r else Ok (tag, r)) = Ok (k, r1) /\
     nth_error ts1 s = Some x1 /\ (x1 = set_flag x0 (sysflag (str_of g i))) /\ (forall t, t <> s -> nth_error ts1 t = nth_error ts' t)).
  { assert (Ie : inp re = (if negb (sysflag (str_of g i) =? 0) then num 35 ++ num (sysflag (str_of g i)) else []) ++ num k ++ b ++ rest) by reflexivity.
    destruct (Z.eqb_spec (sysflag (str_of g i)) 0) as [F | F]; cbn [negb] in Ie.
    - exists ts', (set_flag x0 0). cbn zeta. conjs; auto.
      + rewrite (SymRInt_num re k (b ++ rest) Ie) by (apply in_int32; lia). cbn [bind]. replace (k =? 35) with false by lia. reflexivity.
      + rewrite Q5. f_equal. destruct x0; cbn in A8 |- *. rewrite A8. reflexivity.
      + rewrite F. reflexivity.
    - exists (upd_nth ts' s (set_flag x0 (sysflag (str_of g i)))), (set_flag x0 (sysflag (str_of g i))). cbn zeta. conjs; auto.
      + rewrite <- app_assoc in Ie. rewrite (SymRInt_num re 35 _ Ie) by (apply in_int32; lia). cbn [bind]. change (35 =? 35) with true. cbn iota.
        rewrite (SymRInt_num _ (sysflag (str_of g i)) (num k ++ b ++ rest)); [| reflexivity | apply in_int32; apply in_int16 in OF; lia]. cbn [bind].
        rewrite (change_ok _ s x0) by exact Q5. cbn [bind]. rewrite wrap_s_id by (lia || exact OF).
        rewrite (SymRInt_num _ k (b ++ rest)); [| reflexivity | apply in_int32; lia]. rewrite !set_inp_false. unfold set_tys. cbn [inp eof tys mods nofr refs nofm glb]. rewrite ?orb_false_r. reflexivity.
      + apply (upd_nth_same _ _ _ _ _ Q5).
      + intros t D. apply upd_nth_other. congruence. }
  destruct Q7 as (ts1 & x1 & Q7 & N1 & -> & F1). set (x1 := set_flag x0 (sysflag (str_of g i))) in *.
  set (r1 := set_tys (set_inp re (b ++ rest) false) ts1) in *. cbn zeta in Q7.
  assert (Lr : forall mn n, lookup r1 mn n = lookup (set_tys (set_mods (set_nofr rc (nofr r)) ms) ts) mn n) by reflexivity.
  assert (Xr : forall n, midx r1 n = midx (set_tys (set_mods (set_nofr rc (nofr r)) ms) ts) n) by reflexivity.
  assert (Nr : forall n, mname r1 n = mname (set_tys (set_mods (set_nofr rc (nofr r)) ms) ts) n) by reflexivity.
  assert (Lc : forall mn n, lookup (set_nofr rc (nofr r)) mn n = lookup r mn n) by (intros mn n; change (lookup rb mn n = lookup r mn n); rewrite Lb; reflexivity).
  assert (Xc : forall n q, midx r n = Some q -> midx r1 n = Some q) by (intros n q Q; rewrite Xr, A17; apply Xm; exact Q).
  exists s, x1, r1. cbn zeta.
  split.
  { intros n. cbn [InStruct]. rewrite Q1. cbn [bind]. change (34 =? 34) with true. cbn [negb]. cbv iota. cbn zeta. change (nofr (set_inp r _ false)) with (nofr r). fold ra. rewrite Q2. cbn [bind]. rewrite Q3. cbn [bind]. fold rc.
    assert (LT : length (tys rc) = length (tys (set_nofr rc (nofr r)))) by reflexivity. rewrite LT.
    assert (A1' : insert_mod gm (match sname_ i with [] => AT | _ => sname_ i end) (sname_ i) (mkobj Internal (KTyp (TS (length (tys (set_nofr rc (nofr r))))))) rc = Ok (old, set_mods rc ms)).
    { unfold insert_mod in A1 |- *. cbn [set_nofr mods] in A1. change (mods (set_nofr rc (nofr r))) with (mods rc) in A1. destruct (nth_error (mods rc) gm) as [[mn t] |]; [| discriminate]. destruct (InsertImport _ _ _ t) as [t' o'].
      inversion A1. subst. reflexivity. }
    rewrite A1'. cbn [bind].
    assert (A2' : (match old with
     | None => Ok (length (tys (set_nofr rc (nofr r))), set_tys (set_mods rc ms) (tys (set_mods rc ms) ++ [new_str gm (sname_ i)]))
     | Some o => match okind o with
                 | KTyp (TS j) => let* r := change j (fun x => set_pars (set_tree (set_flds (set_flag x 0) []) Leaf) []) (set_mods rc ms) in Ok (j, r)
                 | _ => UB
                 end
     end) = Ok (s, rd_)).
    { unfold rd_. destruct old as [o |].
      - destruct (okind o) as [| [| | | j] | |]; try discriminate. unfold change in A2 |- *. change (tys (set_mods (set_nofr rc (nofr r)) ms)) with (tys (set_mods rc ms)) in A2. destruct (nth_error (tys (set_mods rc ms)) j) as [y |]; [| discriminate].
        cbn [bind] in A2 |- *. inversion A2. reflexivity.
      - inversion A2. reflexivity. }
    rewrite A2'. cbn [bind]. rewrite Q4. cbn [bind]. fold re.
    destruct (SymRInt re) as [[tag re'] | | |]; try discriminate. cbn [bind] in Q7 |- *. rewrite Q7. cbn [bind]. reflexivity. }
  assert (NE : forall t, t <> s -> nth_error ts1 t = nth_error ts' t) by exact F1.
  assert (SL : forall j t y, rho j = Some t -> nth_error (tys r) t = Some y ->
     nth_error ts1 t = Some (match dt with Some (d, b) => if Nat.eqb d t then set_base y (Some b) else y | None => y end)).
  { intros j t y Rj Ny. assert (t <> s) by (intros ->; apply (A14 j Rj)). rewrite NE by assumption. apply Q6; assumption. }
  assert (RM : forall j t, rho j = Some t -> upd rho i s j = Some t).
  { intros j t Rj. unfold upd. destruct (Nat.eqb_spec j i) as [-> | D]; [congruence | exact Rj]. }
  conjs; auto.
  - rewrite Xr, A17. cbn [x1 set_flag imno]. rewrite A7. exact Xb.
  - constructor.
    + apply modsim_tys. destruct A3 as [MN ML MD MI MA]. constructor; auto.
    + constructor.
      * change (nofr r1) with (nofr rb). rewrite Nb, Wn. change (nofr ra) with (nofr r + 1). destruct (ts_next _ _ _ _ T) as [-> C]. lia.
      * intros j. rewrite Wr. unfold upd. destruct (Nat.eqb_spec j i) as [-> | D]; [split; discriminate | apply (ts_dom _ _ _ _ T)].
      * intros j t kk Rj Wj. rewrite Wr in Wj. rewrite Wn. unfold upd in Rj, Wj. change (refs r1 kk) with (if kk =? nofr r then Some (TS s) else refs rb kk). rewrite Rb. change (refs ra kk) with (refs r kk).
        destruct (ts_next _ _ _ _ T) as [NX C]. destruct (Nat.eqb_spec j i) as [-> | D].
        -- inversion Rj; inversion Wj; subst. split; [lia |]. rewrite NX, Z.eqb_refl. reflexivity.
        -- destruct (ts_ref _ _ _ _ T _ _ _ Rj Wj) as [KB' RR]. split; [lia |]. replace (kk =? nofr r) with false by lia. exact RR.
      * intros j t Rj. unfold upd in Rj. destruct (Nat.eqb_spec j i) as [-> | D].
        -- inversion Rj; subst t. exists x1. conjs; auto. split; [exact A6 |]. rewrite Xr, A17. cbn [x1 set_flag imno]. rewrite A7. exact Xb.
        -- destruct (ts_slot _ _ _ _ T _ _ Rj) as (y & Ny & [D1 D2] & P). eexists. split; [apply (SL j t y Rj Ny) |]. apply (std_mono _ _ _ _ _ _ RM) in P.
           assert (ID : ident r1 j y) by (split; [exact D1 | apply Xc, D2]).
           unfold dt. destruct dst as [d |]; cbn [option_map].
           ++ destruct (Nat.eqb_spec d t) as [-> | Dd].
              ** split; [exact ID |]. right. destruct DST as (j' & Rj' & DX). assert (j' = j) as -> by (apply (ts_inj _ _ _ _ T _ _ _ Rj' Rj)).
                 destruct P as (P1 & P2 & P3 & P4). unfold std. conjs; auto. intros _. destruct X as [xx |].
                 --- destruct DX as (-> & al & n & fs & ps & S). rewrite S. exists (TS s). split; [reflexivity |]. exists s. unfold upd. rewrite Nat.eqb_refl. auto.
                 --- destruct (sshape (str_of g j)) as [| | | | base al n fs ps] eqn:S; auto. assert (is_record g (TS j) = true) by (apply is_record_shape; eauto 10). congruence.
              ** split; [exact ID |]. right. destruct DST as (j' & Rj' & DX). destruct P as (P1 & P2 & P3 & P4). unfold std. conjs; auto. intros _. apply P4. intros ->. destruct DX as [-> _]. congruence.
           ++ split; [exact ID |]. right. cbn in DST. subst X. exact P.
      * intros j j' t Rj Rj'. unfold upd in Rj, Rj'. destruct (Nat.eqb_spec j i) as [-> | D]; destruct (Nat.eqb_spec j' i) as [-> | D']; auto.
        -- inversion Rj; subst t. exfalso. apply (A14 j' Rj').
        -- inversion Rj'; subst t. exfalso. apply (A14 j Rj).
        -- apply (ts_inj _ _ _ _ T _ _ _ Rj Rj').
      * intros j t Rj Kj. unfold upd in Rj. destruct (Nat.eqb_spec j i) as [-> | D]; [discriminate |].
        destruct (ts_K _ _ _ _ T _ _ Rj Kj) as (y & Ny & [D1 D2] & F). assert (t <> s) by (intros ->; apply (A16 j D Rj Kj)).
        change (tys r1) with ts1. rewrite NE by assumption. rewrite (Q6 t y) by assumption. eexists. split; [reflexivity |].
        assert (ID : ident r1 j y) by (split; [exact D1 | apply Xc, D2]).
        unfold dt. destruct dst as [d |]; cbn [option_map]; [destruct (Nat.eqb d t) |]; (split; [exact ID | exact F]).
      * intros j t t' Rj Kj. unfold upd in Rj. destruct (Nat.eqb_spec j i) as [-> | D]; [inversion Rj; subst t; symmetry; apply (A15 _ Kj) | apply (ts_same _ _ _ _ T _ _ _ Rj Kj)].
      * intros j Nj. unfold upd. destruct (Nat.eqb_spec j i) as [-> | D].
        -- destruct (A21 Nj) as (o & L & OK & _). exists o. split; [exact L | exact OK].
        -- pose proof (ts_name _ _ _ _ T j Nj) as TM. rewrite Lr, A19; [rewrite Lc; exact TM | exact Nj |].
           destruct (list_eq_dec Z.eq_dec (modname g j) (modname g i)) as [E1 |]; [| left; assumption]. destruct (list_eq_dec Z.eq_dec (sname_ j) (sname_ i)) as [E2 |]; [| right; assumption].
           exfalso. apply D. apply (wf_names _ _ WF); assumption.
      * split.
        -- intros t L. change (tys r1) with ts1. destruct (Nat.eq_dec t s) as [-> | D]; [rewrite N1; discriminate |]. rewrite NE by exact D. destruct (nth_error (tys r) t) as [y |] eqn:Ny; [rewrite (Q6 t y D Ny); discriminate | exfalso; apply (proj1 (ts_L _ _ _ _ T) t L Ny)].
        -- intros j t Rj. unfold upd in Rj. destruct (Nat.eqb_spec j i) as [-> | D]; [inversion Rj; subst t; exact A22 | apply (proj2 (ts_L _ _ _ _ T) _ _ Rj)].
    + rewrite Wn. unfold maxStruct in *. lia.
  - constructor; auto.
    + intros t y Ny D _. change (tys r1) with ts1. assert (t <> s) by congruence. rewrite NE by assumption. apply Q6; assumption.
    + intros q n Q. rewrite Nr, A18. apply Nm. exact Q.
    + intros mn n o D L. rewrite Lr. apply A20; [exact D |]. rewrite Lc. exact L.
    + intros mn n o D L. rewrite Lr in L. destruct (list_eq_dec Z.eq_dec mn (modname g i)) as [-> | E1]; [destruct (list_eq_dec Z.eq_dec n (sname_ i)) as [-> | E2] |].
      * destruct (A21 D) as (o' & L' & OK & V). rewrite L in L'. inversion L'; subst o'. rewrite Lc in V. destruct (lookup r (modname g i) (sname_ i)) as [o2 |] eqn:L2.
        -- left. rewrite <- Lc in L2. rewrite (A20 _ _ _ D L2) in L. exact L.
        -- right. split; [apply V; reflexivity |]. exists i. conjs; auto. unfold upd. rewrite Nat.eqb_refl. discriminate.
      * left. rewrite A19 in L by auto. rewrite Lc in L. exact L.
      * left. rewrite A19 in L by auto. rewrite Lc in L. exact L.
    + intros j t Rj Rj' D. unfold upd in Rj'. destruct (Nat.eqb_spec j i) as [-> | D']; [inversion Rj'; contradiction | congruence].
    + change (eof r1) with ((eof rb || false) || false)%bool. rewrite !orb_false_r, Eb. change (eof ra) with (eof r || false)%bool. apply orb_false_r.
Qed.

(** ** Reading what OutStr wrote *)
Definition early (E : nat -> Prop) (t : ty) : Prop := forall e j, E e -> t = TS j -> exists b, early_part (sshape (str_of g e)) = Some b /\ Reach g b j.
Definition reads (f : nat) : Prop :=
  forall t w bs w', SOut g H f t w = Ok (bs, w') -> forall rho X E r dst rest,
    inp r = bs ++ rest -> sim w r rho (std X E rho) -> ok_ty t -> early E t -> dst_ok X dst rho t ->
    exists N r' rho' t', (forall n, (N <= n)%nat -> InStruct n self dst r = Ok (t', r')) /\ inp r' = rest /\ tcorr rho' t t' /\
      sim w' r' rho' (std None E rho') /\ step (fun _ => False) r rho (option_map (fun d => (d, t')) dst) r' rho'.

Lemma early_sub : forall E i t, early E (TS i) -> In t (refers (sshape (str_of g i))) -> early E t.
Proof. intros E i t A I e j Ee ->. destruct (A e i Ee eq_refl) as (b & P & R). exists b. split; [exact P | apply (R_step _ _ _ _ R I)]. Qed.
Lemma early_add : forall (E : nat -> Prop) i t, early E t -> (forall j, t = TS j -> exists b, early_part (sshape (str_of g i)) = Some b /\ Reach g b j) -> early (fun e => e = i \/ E e) t.
Proof. intros E i t A B e j [-> | Ee] Q; [apply B, Q | apply (A e j Ee Q)]. Qed.

Lemma InPars_ok : forall f, reads f -> forall ps w bs w' rho E r rest, OutPars (SOut g H f) ps w = Ok (bs, w') ->
  inp r = bs ++ rest -> sim w r rho (std None E rho) -> Forall ok_par ps -> (forall p, In p ps -> early E (ptyp p)) ->
  exists N r' rho' ps', (forall n k, (N <= n)%nat -> (N <= k)%nat -> InPars (InStruct n self) k r = Ok (ps', r')) /\ inp r' = rest /\ Forall2 (pcorr rho') ps ps' /\
    sim w' r' rho' (std None E rho') /\ step (fun _ => False) r rho None r' rho'.
Proof.
  intros f RD. induction ps as [| p ps IH]; intros w bs w' rho E r rest OUT I SIM OK EA; cbn [OutPars] in OUT.
  - apply Ok_pair in OUT as [<- <-]. exists 1%nat, (set_inp r rest false), rho, []. conjs.
    + intros n [| k] _ L; [lia |]. cbn [InPars]. rewrite (SymRInt_num r 18 rest I) by (apply in_int32; lia). reflexivity.
    + rewrite set_inp_false. revert SIM. apply sim_same; reflexivity.
    + rewrite set_inp_false. apply step_same; reflexivity.
  - destruct (SOut g H f (ptyp p) w) as [[b1 w1] | | |] eqn:O1; try discriminate. cbn [bind] in OUT. destruct (OutPars (SOut g H f) ps w1) as [[b2 w2] | | |] eqn:O2; try discriminate. cbn [bind] in OUT.
    apply Ok_pair in OUT as [<- <-]. apply Forall_cons_iff in OK as [(T1 & T2 & T3) OK]. rewrite <- !app_assoc in I.
    pose proof (SymRInt_num r (if pvar p then 24 else 23) _ I ltac:(apply in_int32; destruct (pvar p); lia)) as Q1.
    match type of Q1 with _ = Ok (_, ?x) => set (ra := x) in * end.
    assert (Sa : sim w ra rho (std None E rho)) by (unfold ra; rewrite set_inp_false; revert SIM; apply sim_same; reflexivity).
    destruct (RD _ _ _ _ O1 rho None E ra None _ eq_refl Sa T1 (EA p (or_introl eq_refl)) eq_refl) as (N1 & rb & rho1 & t' & P1 & I1 & C1 & S1 & ST1).
    pose proof (SymRInt_num rb (padr p) _ I1 T2) as Q2. match type of Q2 with _ = Ok (_, ?x) => set (rc := x) in * end.
    pose proof (SymRName_out rc (pname p) _ eq_refl (proj1 (proj2 T3))) as Q3. match type of Q3 with _ = Ok (_, ?x) => set (re := x) in * end.
    assert (Se : sim w1 re rho1 (std None E rho1)) by (unfold re, rc; rewrite !set_inp_false; revert S1; apply sim_same; reflexivity).
    destruct (IH _ _ _ _ E re rest O2 eq_refl Se OK (fun q J => EA q (or_intror J))) as (N2 & r2 & rho2 & ps' & P2 & I2 & C2 & S2 & ST2).
    exists (S (N1 + N2)), r2, rho2, (mkpar (pvar p) t' (padr p) (pname p) :: ps'). conjs.
    + intros n [| k] L1 L2; [lia |]. cbn [InPars]. rewrite Q1. cbn [bind]. replace ((if pvar p then 24 else 23) =? 18) with false by (destruct (pvar p); reflexivity).
      fold ra. rewrite P1 by lia. cbn [bind]. rewrite Q2. cbn [bind]. fold rc. rewrite Q3. cbn [bind]. fold re. rewrite P2 by lia. cbn [bind]. destruct (pvar p); reflexivity.
    + constructor; [| exact C2]. repeat split. cbn [ptyp]. apply (tcorr_mono _ _ _ _ (p_rho _ _ _ _ _ _ ST2) C1).
    + pose proof (ts_inj _ _ _ _ (sim_t _ _ _ _ S2)) as INJ.
      assert (STa : step (fun _ => False) r rho None ra rho) by (unfold ra; rewrite set_inp_false; apply step_same; reflexivity).
      assert (STb : step (fun _ => False) rb rho1 None re rho1) by (unfold re, rc; rewrite !set_inp_false; apply step_same; reflexivity).
      pose proof (step_trans _ _ _ _ _ _ _ _ (ts_inj _ _ _ _ (sim_t _ _ _ _ S1)) STa ST1) as Z1. pose proof (step_trans _ _ _ _ _ _ _ _ (ts_inj _ _ _ _ (sim_t _ _ _ _ S1)) Z1 STb) as Z2.
      apply (step_trans _ _ _ _ _ _ _ _ INJ Z2 ST2).
Qed.
Lemma InSign_ok : forall f, reads f -> forall sg w bs w' rho E r dst rest, OutSign (SOut g H f) sg w = Ok (bs, w') ->
  inp r = bs ++ rest -> sim w r rho (std None E rho) -> ok_sign sg -> (forall t, In t (sig_types sg) -> early E t) -> dst_ok None dst rho (sres sg) ->
  exists N r' rho' sg', (forall n k, (N <= n)%nat -> (N <= k)%nat -> InSign (InStruct n self) k dst r = Ok (sg', r')) /\ inp r' = rest /\ scorr rho' sg sg' /\
    sim w' r' rho' (std None E rho') /\ step (fun _ => False) r rho (option_map (fun d => (d, sres sg')) dst) r' rho'.
Proof.
  intros f RD sg w bs w' rho E r dst rest OUT I SIM [T1 T2] EA DST. unfold OutSign in OUT.
  destruct (SOut g H f (sres sg) w) as [[b1 w1] | | |] eqn:O1; try discriminate. cbn [bind] in OUT. destruct (OutPars (SOut g H f) (spar sg) w1) as [[b2 w2] | | |] eqn:O2; try discriminate. cbn [bind] in OUT.
  apply Ok_pair in OUT as [<- <-]. rewrite <- app_assoc in I.
  destruct (RD _ _ _ _ O1 rho None E r dst _ I SIM T1 (EA _ (or_introl eq_refl)) DST) as (N1 & rb & rho1 & t' & P1 & I1 & C1 & S1 & ST1).
  destruct (InPars_ok f RD _ _ _ _ _ E rb rest O2 I1 S1 T2 (fun p J => EA _ (or_intror (in_map ptyp _ _ J)))) as (N2 & r2 & rho2 & ps' & P2 & I2 & C2 & S2 & ST2).
  exists (N1 + N2)%nat, r2, rho2, (mksig t' ps'). conjs.
  - intros n k L1 L2. unfold InSign. rewrite P1 by lia. cbn [bind]. rewrite P2 by lia. reflexivity.
  - split; [apply (tcorr_mono _ _ _ _ (p_rho _ _ _ _ _ _ ST2) C1) | exact C2].
  - apply (step_trans _ _ _ _ _ _ _ _ (ts_inj _ _ _ _ (sim_t _ _ _ _ S2)) ST1 ST2).
Qed.

(** Entry [s] of the open type [i] is [x], up to steps that leave it out. *)
Definition add_fld (x : istr) (f : fld) : istr := set_tree (set_flds x (iflds x ++ [f])) (fst (InsertImport (fname f) (fname f) (MF f) (itree x))).
Lemma fold_add_fld : forall fs x, iflds (fold_left add_fld fs x) = iflds x ++ fs /\ itree (fold_left add_fld fs x) = ins_all member_name (map MF fs) (itree x) /\
  fold_left add_fld fs x = set_tree (set_flds x (iflds (fold_left add_fld fs x))) (itree (fold_left add_fld fs x)).
Proof.
  induction fs as [| f fs IH]; intros x; cbn [fold_left map].
  - rewrite app_nil_r. split; [reflexivity |]. split; [reflexivity |]. destruct x; reflexivity.
  - destruct (IH (add_fld x f)) as (A & B & C). conjs.
    + rewrite A. unfold add_fld. cbn [set_tree set_flds iflds]. rewrite <- app_assoc. reflexivity.
Qed.
Lemma InFlds_hid : forall hs n k s x r rest, Forall (in_int 32) hs -> nth_error (tys r) s = Some x -> inp r = hdptrs hs ++ rest ->
  let x' := fold_left add_fld (map (fun a => mkfld HdPtrName Internal (TB 0) a) hs) x in
  let r' := set_inp (set_tys r (upd_nth (tys r) s x')) rest false in
  (let* (tag, r0) := SymRInt r in InFlds (InStruct n self) (length hs + k) s tag r0) = (let* (tag, r0) := SymRInt r' in InFlds (InStruct n self) k s tag r0).
Proof.
  induction hs as [| a hs IH]; intros n k s x r rest F N I; cbn [map fold_left length Nat.add].
  - cbn zeta. f_equal. unfold hdptrs in I. cbn in I. rewrite set_inp_false. cbn [set_tys inp eof tys mods nofr refs nofm glb].
    replace (upd_nth (tys r) s x) with (tys r); [rewrite <- I; destruct r; reflexivity |].
    clear - N. revert s N. generalize (tys r). induction l as [| y l IH]; intros [| s] N; cbn [nth_error upd_nth] in *; try discriminate; [inversion N; reflexivity | f_equal; auto].
  - apply Forall_cons_iff in F as [Fa F]. unfold hdptrs in I. cbn [map concat] in I. fold (hdptrs hs) in I. rewrite <- !app_assoc in I.
    rewrite (SymRInt_num r 27 _ I) by (apply in_int32; lia). cbn [bind]. cbn [InFlds]. change ((27 >=? 25) && (27 <=? 28)) with true. cbv iota. unfold InFld. change (27 <=? 26) with false. cbv iota.
    rewrite (SymRInt_num _ a (hdptrs hs ++ rest)); [| reflexivity | exact Fa]. cbn [bind]. change (27 =? 27) with true. cbv iota.
    rewrite (change_ok _ s x) by exact N. cbn [bind].
    match goal with |- (let* (tag, r0) := SymRInt ?q in _) = _ => set (rq := q) end.
    set (x1 := add_fld x (mkfld HdPtrName Internal (TB 0) a)).
    assert (N1 : nth_error (tys rq) s = Some x1) by (unfold rq; rewrite !set_inp_false; cbn [set_tys tys]; apply (upd_nth_same _ _ _ _ _ N)).
    rewrite (IH n k s x1 rq rest F N1 ltac:(unfold rq; rewrite !set_inp_false; reflexivity)). cbn zeta. f_equal. unfold rq. rewrite !set_inp_false. cbn [set_tys inp eof tys mods nofr refs nofm glb].
    rewrite upd_nth_twice. reflexivity.
Qed.

Lemma sim_cnt : forall w r rho P c, sim w r rho P -> sim (set_cnt w c) r rho P.
Proof. intros w r rho P c [[A1 A2 A3 A4 A5] [B1 B2 B3 B4 B5 B6 B7 B8 B9] C]. constructor; [constructor; auto | constructor; auto | exact C]. Qed.
Lemma std_add : forall X E rho i x f, std X E rho i x -> std X E rho i (add_fld x f).
Proof. intros X E rho i x f S. exact S. Qed.
Lemma std_adds : forall X E rho i fs x, std X E rho i x -> std X E rho i (fold_left add_fld fs x).
Proof. induction fs as [| f fs IH]; intros x S; cbn [fold_left]; [exact S | apply IH, std_add, S]. Qed.
Lemma adds_ident : forall fs x, iname (fold_left add_fld fs x) = iname x /\ imno (fold_left add_fld fs x) = imno x.
Proof. induction fs as [| f fs IH]; intros x; cbn [fold_left]; [auto |]. destruct (IH (add_fld x f)) as [-> ->]. auto. Qed.

Lemma InFlds_ok : forall f, reads f -> forall fs w bs w' rho E r s x i rest, SFlds H (SOut g H f) fs w = Ok (bs, w') ->
  inp r = bs ++ rest -> sim w r rho (std None E rho) -> rho i = Some s -> nth_error (tys r) s = Some x -> Forall (ok_fld H) fs ->
  (forall q, In q fs -> fvis q <> Internal -> early E (ftyp q)) ->
  exists N r' rho' fs', (forall n k T r0, (N <= n)%nat -> (N <= k)%nat -> SymRInt r' = Ok (T, r0) -> ~ 25 <= T <= 28 -> (let* (tag, r0) := SymRInt r in InFlds (InStruct n self) k s tag r0) = Ok (T, r0)) /\
    inp r' = rest /\ Forall2 (fcorr rho') (seen H fs) fs' /\ nth_error (tys r') s = Some (fold_left add_fld fs' x) /\
    sim w' r' rho' (std None E rho') /\ step (eq s) r rho None r' rho'.
Proof.
  intros f RD. induction fs as [| q fs IH]; intros w bs w' rho E r s x i rest OUT I SIM R N OK EA; cbn [SFlds] in OUT.
  - apply Ok_pair in OUT as [<- <-]. exists 1%nat, r, rho, []. conjs; [| constructor | apply step_refl].
    intros n [| k] T r0 _ L Q B; [lia |]. rewrite Q. cbn [bind InFlds]. replace ((T >=? 25) && (T <=? 28)) with false by lia. reflexivity.
  - apply Forall_cons_iff in OK as [OKq OK]. unfold seen. cbn [flat_map]. fold (seen H fs). unfold ok_fld in OKq.
    destruct (fvis q) eqn:V.
    + cbn [bind] in OUT. destruct (SFlds H (SOut g H f) fs (set_cnt w (wcnt w + Zlength (H q)))) as [[b2 w2] | | |] eqn:O2; try discriminate. cbn [bind] in OUT.
      apply Ok_pair in OUT as [<- <-]. rewrite <- app_assoc in I.
      set (hs := map (fun a => mkfld HdPtrName Internal (TB 0) a) (H q)). set (x1 := fold_left add_fld hs x).
      set (r1 := set_inp (set_tys r (upd_nth (tys r) s x1)) (b2 ++ rest) false).
      pose proof (fun n k => InFlds_hid (H q) n k s x r _ OKq N I) as HQ. cbn zeta in HQ. fold hs in HQ. fold x1 in HQ. fold r1 in HQ.
      destruct (adds_ident hs x) as [D1 D2].
      assert (S1 : sim (set_cnt w (wcnt w + Zlength (H q))) r1 rho (std None E rho)).
      { apply sim_cnt. unfold r1. rewrite set_inp_false. apply (sim_same w (set_tys r (upd_nth (tys r) s x1))); try reflexivity.
        apply (sim_change w r rho (std None E rho) _ i s x x1 SIM R N D1 D2); [intros _; apply std_adds | auto]. }
      assert (N1 : nth_error (tys r1) s = Some x1) by (unfold r1; rewrite set_inp_false; cbn [set_tys tys]; apply (upd_nth_same _ _ _ _ _ N)).
      destruct (IH _ _ _ rho E r1 s x1 i rest O2 eq_refl S1 R N1 OK (fun q' J => EA q' (or_intror J))) as (N2 & r2 & rho2 & fs' & P2 & I2 & C2 & X2 & S2 & ST2).
      exists (N2 + length (H q))%nat, r2, rho2, (hs ++ fs'). conjs.
      * intros n k T r0 L1 L2 Q B. replace k with (length (H q) + (k - length (H q)))%nat by lia. rewrite HQ. apply P2; [lia | lia | exact Q | exact B].
      * apply Forall2_app; [| exact C2]. unfold hs. clear. induction (H q) as [| a l IH]; cbn [map]; constructor; [repeat split | exact IH].
      * rewrite X2. unfold x1. rewrite <- fold_left_app. reflexivity.
      * apply (step_trans _ _ _ _ r1 rho _ _ (ts_inj _ _ _ _ (sim_t _ _ _ _ S2))); [| exact ST2].
        apply (step_trans _ _ _ _ (set_tys r (upd_nth (tys r) s x1)) rho _ _ (ts_inj _ _ _ _ (sim_t _ _ _ _ SIM))); [apply step_change; reflexivity |].
        unfold r1. rewrite set_inp_false. apply step_same; reflexivity.
    + destruct OKq as (T1 & T2 & T3). destruct (SOut g H f (ftyp q) w) as [[b1 w1] | | |] eqn:O1; try discriminate. cbn [bind] in OUT.
      destruct (SFlds H (SOut g H f) fs w1) as [[b2 w2] | | |] eqn:O2; try discriminate. cbn [bind] in OUT. apply Ok_pair in OUT as [<- <-]. rewrite <- !app_assoc in I.
      pose proof (SymRInt_num r 25 _ I ltac:(apply in_int32; lia)) as Q1. match type of Q1 with _ = Ok (_, ?z) => set (ra := z) in * end.
      assert (Sa : sim w ra rho (std None E rho)) by (unfold ra; rewrite set_inp_false; revert SIM; apply sim_same; reflexivity).
      destruct (RD _ _ _ _ O1 rho None E ra None _ eq_refl Sa T1 (EA q (or_introl eq_refl) ltac:(congruence)) eq_refl) as (N1 & rb & rho1 & t' & P1 & I1 & C1 & S1 & ST1).
      pose proof (SymRName_out rb (fname q) _ I1 (proj1 (proj2 T3))) as Q2. match type of Q2 with _ = Ok (_, ?z) => set (rc := z) in * end.
      pose proof (SymRInt_num rc (fadr q) _ eq_refl T2) as Q3. match type of Q3 with _ = Ok (_, ?z) => set (re := z) in * end.
      set (q' := mkfld (fname q) External t' (fadr q)).
      assert (Na : nth_error (tys ra) s = Some x) by exact N.
      assert (Nb : nth_error (tys rb) s = Some x) by (apply (step_keep _ _ _ _ _ _ _ _ _ _ S1 ST1 R Na)).
      assert (Ne : nth_error (tys re) s = Some x) by exact Nb.
      set (r1 := set_tys re (upd_nth (tys re) s (add_fld x q'))).
      assert (R1 : rho1 i = Some s) by (apply (p_rho _ _ _ _ _ _ ST1), R).
      assert (Se : sim w1 re rho1 (std None E rho1)) by (unfold re, rc; rewrite !set_inp_false; revert S1; apply sim_same; reflexivity).
      assert (S3 : sim w1 r1 rho1 (std None E rho1)) by (apply (sim_change w1 re rho1 (std None E rho1) _ i s x (add_fld x q') Se R1 Ne eq_refl eq_refl); auto).
      assert (N3 : nth_error (tys r1) s = Some (add_fld x q')) by (apply (upd_nth_same _ _ _ _ _ Ne)).
      destruct (IH _ _ _ rho1 E r1 s _ i rest O2 eq_refl S3 R1 N3 OK (fun q'' J => EA q'' (or_intror J))) as (N2 & r2 & rho2 & fs' & P2 & I2 & C2 & X2 & S2 & ST2).
      exists (S (N1 + N2))%nat, r2, rho2, (q' :: fs'). conjs.
      * intros n [| k] T r0 L1 L2 Q B; [lia |]. rewrite Q1. cbn [bind InFlds]. change ((25 >=? 25) && (25 <=? 28)) with true. cbv iota. unfold InFld. change (25 <=? 26) with true. cbv iota.
        rewrite P1 by lia. cbn [bind]. rewrite Q2. cbn [bind]. rewrite Q3. cbn [bind]. change (25 =? 26) with false. cbv iota. fold q'. rewrite (change_ok re s x) by exact Ne. cbn [bind]. apply P2; [lia | lia | exact Q | exact B].
      * cbn [app]. constructor; [| exact C2]. repeat split; [symmetry; exact V |]. apply (tcorr_mono _ _ _ _ (p_rho _ _ _ _ _ _ ST2) C1).
      * apply (step_trans _ _ _ _ r1 rho1 _ _ (ts_inj _ _ _ _ (sim_t _ _ _ _ S2))); [| exact ST2].
        pose proof (ts_inj _ _ _ _ (sim_t _ _ _ _ S1)) as INJ.
        apply (step_trans _ _ _ _ re rho1 _ _ INJ); [| apply step_change; reflexivity].
        apply (step_trans _ _ _ _ rb rho1 _ _ INJ); [| unfold re, rc; rewrite !set_inp_false; apply step_same; reflexivity].
        apply (step_trans _ _ _ _ ra rho _ _ INJ); [unfold ra; rewrite set_inp_false; apply step_same; reflexivity | apply step_weaken0, ST1].
    + destruct OKq as (T1 & T2 & T3). destruct (SOut g H f (ftyp q) w) as [[b1 w1] | | |] eqn:O1; try discriminate. cbn [bind] in OUT.
      destruct (SFlds H (SOut g H f) fs w1) as [[b2 w2] | | |] eqn:O2; try discriminate. cbn [bind] in OUT. apply Ok_pair in OUT as [<- <-]. rewrite <- !app_assoc in I.
      pose proof (SymRInt_num r 26 _ I ltac:(apply in_int32; lia)) as Q1. match type of Q1 with _ = Ok (_, ?z) => set (ra := z) in * end.
      assert (Sa : sim w ra rho (std None E rho)) by (unfold ra; rewrite set_inp_false; revert SIM; apply sim_same; reflexivity).
      destruct (RD _ _ _ _ O1 rho None E ra None _ eq_refl Sa T1 (EA q (or_introl eq_refl) ltac:(congruence)) eq_refl) as (N1 & rb & rho1 & t' & P1 & I1 & C1 & S1 & ST1).
      pose proof (SymRName_out rb (fname q) _ I1 (proj1 (proj2 T3))) as Q2. match type of Q2 with _ = Ok (_, ?z) => set (rc := z) in * end.
      pose proof (SymRInt_num rc (fadr q) _ eq_refl T2) as Q3. match type of Q3 with _ = Ok (_, ?z) => set (re := z) in * end.
      set (q' := mkfld (fname q) ReadOnly t' (fadr q)).
      assert (Na : nth_error (tys ra) s = Some x) by exact N.
      assert (Nb : nth_error (tys rb) s = Some x) by (apply (step_keep _ _ _ _ _ _ _ _ _ _ S1 ST1 R Na)).
      assert (Ne : nth_error (tys re) s = Some x) by exact Nb.
      set (r1 := set_tys re (upd_nth (tys re) s (add_fld x q'))).
      assert (R1 : rho1 i = Some s) by (apply (p_rho _ _ _ _ _ _ ST1), R).
      assert (Se : sim w1 re rho1 (std None E rho1)) by (unfold re, rc; rewrite !set_inp_false; revert S1; apply sim_same; reflexivity).
      assert (S3 : sim w1 r1 rho1 (std None E rho1)) by (apply (sim_change w1 re rho1 (std None E rho1) _ i s x (add_fld x q') Se R1 Ne eq_refl eq_refl); auto).
      assert (N3 : nth_error (tys r1) s = Some (add_fld x q')) by (apply (upd_nth_same _ _ _ _ _ Ne)).
      destruct (IH _ _ _ rho1 E r1 s _ i rest O2 eq_refl S3 R1 N3 OK (fun q'' J => EA q'' (or_intror J))) as (N2 & r2 & rho2 & fs' & P2 & I2 & C2 & X2 & S2 & ST2).
      exists (S (N1 + N2))%nat, r2, rho2, (q' :: fs'). conjs.
      * intros n [| k] T r0 L1 L2 Q B; [lia |]. rewrite Q1. cbn [bind InFlds]. change ((26 >=? 25) && (26 <=? 28)) with true. cbv iota. unfold InFld. change (26 <=? 26) with true. cbv iota.
        rewrite P1 by lia. cbn [bind]. rewrite Q2. cbn [bind]. rewrite Q3. cbn [bind]. change (26 =? 26) with true. cbv iota. fold q'. rewrite (change_ok re s x) by exact Ne. cbn [bind]. apply P2; [lia | lia | exact Q | exact B].
      * cbn [app]. constructor; [| exact C2]. repeat split; [symmetry; exact V |]. apply (tcorr_mono _ _ _ _ (p_rho _ _ _ _ _ _ ST2) C1).
      * apply (step_trans _ _ _ _ r1 rho1 _ _ (ts_inj _ _ _ _ (sim_t _ _ _ _ S2))); [| exact ST2].
        pose proof (ts_inj _ _ _ _ (sim_t _ _ _ _ S1)) as INJ.
        apply (step_trans _ _ _ _ re rho1 _ _ INJ); [| apply step_change; reflexivity].
        apply (step_trans _ _ _ _ rb rho1 _ _ INJ); [| unfold re, rc; rewrite !set_inp_false; apply step_same; reflexivity].
        apply (step_trans _ _ _ _ ra rho _ _ INJ); [unfold ra; rewrite set_inp_false; apply step_same; reflexivity | apply step_weaken0, ST1].
Qed.

Definition add_proc (x : istr) (p : tproc) : istr := set_tree x (fst (InsertImport (tname p) (tname p) (MP p) (itree x))).
Lemma fold_add_proc : forall ps x, fold_left add_proc ps x = set_tree x (ins_all member_name (map MP ps) (itree x)).
Proof.
  induction ps as [| p ps IH]; intros x; cbn [fold_left map].
  - destruct x; reflexivity.
  - rewrite IH. reflexivity.
Qed.
Lemma InTProcs_ok : forall f, reads f -> forall ps w bs w' rho E r s x i rest, STProcs (SOut g H f) ps w = Ok (bs, w') ->
  inp r = bs ++ num 18 ++ rest -> sim w r rho (std None E rho) -> rho i = Some s -> nth_error (tys r) s = Some x -> Forall ok_tproc ps ->
  (forall p, In p ps -> tvis p <> Internal) ->
  (forall p t, In p ps -> In t (sig_types (tsig p)) -> early E t) ->
  exists N r' rho' ps', (forall n k, (N <= n)%nat -> (N <= k)%nat -> (let* (tag, r0) := SymRInt r in InTProcs (InStruct n self) n k s tag r0) = Ok r') /\
    inp r' = rest /\ Forall2 (tpcorr rho') ps ps' /\ nth_error (tys r') s = Some (fold_left add_proc ps' x) /\
    sim w' r' rho' (std None E rho') /\ step (eq s) r rho None r' rho'.
Proof.
  intros f RD. induction ps as [| p ps IH]; intros w bs w' rho E r s x i rest OUT I SIM R N OK EV EA; cbn [STProcs] in OUT.
  - apply Ok_pair in OUT as [<- <-]. cbn [app] in I. exists 1%nat, (set_inp r rest false), rho, []. conjs.
    + intros n [| k] _ L; [lia |]. rewrite (SymRInt_num r 18 rest I) by (apply in_int32; lia). reflexivity.
    + rewrite set_inp_false. revert SIM. apply sim_same; reflexivity.
    + rewrite set_inp_false. apply step_same; reflexivity.
  - apply Forall_cons_iff in OK as [(T0 & T1 & T2 & T3) OK].
    destruct (OutSign (SOut g H f) (tsig p) w) as [[b1 w1] | | |] eqn:O1; try discriminate. cbn [bind] in OUT.
    destruct (STProcs (SOut g H f) ps w1) as [[b2 w2] | | |] eqn:O2; try discriminate. cbn [bind] in OUT. apply Ok_pair in OUT as [<- <-]. rewrite <- !app_assoc in I.
    pose proof (SymRInt_num r 29 _ I ltac:(apply in_int32; lia)) as Q1. match type of Q1 with _ = Ok (_, ?z) => set (ra := z) in * end.
    assert (Sa : sim w ra rho (std None E rho)) by (unfold ra; rewrite set_inp_false; revert SIM; apply sim_same; reflexivity).
    destruct (InSign_ok f RD _ _ _ _ rho E ra None _ O1 eq_refl Sa T1 (fun t J => EA p t (or_introl eq_refl) J) eq_refl) as (N1 & rb & rho1 & sg' & P1 & I1 & C1 & S1 & ST1).
    pose proof (SymRName_out rb (tname p) _ I1 (proj1 (proj2 T3))) as Q2. match type of Q2 with _ = Ok (_, ?z) => set (rc := z) in * end.
    pose proof (SymRInt_num rc (tnum p) _ eq_refl T2) as Q3. match type of Q3 with _ = Ok (_, ?z) => set (re := z) in * end.
    set (p' := mktp (tname p) External sg' (tnum p)).
    assert (Na : nth_error (tys ra) s = Some x) by exact N.
    assert (Nb : nth_error (tys rb) s = Some x) by (apply (step_keep _ _ _ _ _ _ _ _ _ _ S1 ST1 R Na)).
    assert (Ne : nth_error (tys re) s = Some x) by exact Nb.
    set (r1 := set_tys re (upd_nth (tys re) s (add_proc x p'))).
    assert (R1 : rho1 i = Some s) by (apply (p_rho _ _ _ _ _ _ ST1), R).
    assert (Se : sim w1 re rho1 (std None E rho1)) by (unfold re, rc; rewrite !set_inp_false; revert S1; apply sim_same; reflexivity).
    assert (S3 : sim w1 r1 rho1 (std None E rho1)) by (apply (sim_change w1 re rho1 (std None E rho1) _ i s x (add_proc x p') Se R1 Ne eq_refl eq_refl); auto).
    assert (N3 : nth_error (tys r1) s = Some (add_proc x p')) by (apply (upd_nth_same _ _ _ _ _ Ne)).
    destruct (IH _ _ _ rho1 E r1 s _ i rest O2 eq_refl S3 R1 N3 OK (fun q J => EV q (or_intror J)) (fun q t J => EA q t (or_intror J))) as (N2 & r2 & rho2 & ps' & P2 & I2 & C2 & X2 & S2 & ST2).
    exists (S (N1 + N2))%nat, r2, rho2, (p' :: ps'). conjs.
    + intros n [| k] L1 L2; [lia |]. rewrite Q1. cbn [bind InTProcs]. change (29 =? 18) with false. change (29 =? 29) with true. cbv iota. rewrite P1 by lia. cbn [bind]. rewrite Q2. cbn [bind]. rewrite Q3. cbn [bind].
      fold p'. rewrite (change_ok re s x) by exact Ne. cbn [bind]. apply P2; lia.
    + constructor; [| exact C2]. split; [reflexivity |]. split; [specialize (EV p (or_introl eq_refl)); change (External = tvis p); destruct (tvis p); congruence |]. split; [| reflexivity]. apply (scorr_mono _ _ _ _ (p_rho _ _ _ _ _ _ ST2) C1).
    + apply (step_trans _ _ _ _ r1 rho1 _ _ (ts_inj _ _ _ _ (sim_t _ _ _ _ S2))); [| exact ST2].
      pose proof (ts_inj _ _ _ _ (sim_t _ _ _ _ S1)) as INJ.
      apply (step_trans _ _ _ _ re rho1 _ _ INJ); [| apply step_change; reflexivity].
      apply (step_trans _ _ _ _ rb rho1 _ _ INJ); [| unfold re, rc; rewrite !set_inp_false; apply step_same; reflexivity].
      apply (step_trans _ _ _ _ ra rho _ _ INJ); [unfold ra; rewrite set_inp_false; apply step_same; reflexivity | apply step_weaken0, ST1].
Qed.
Lemma STProcs_head : forall out ps w c w' rest, STProcs out ps w = Ok (c, w') -> exists T l, c ++ num 18 ++ rest = num T ++ l /\ (T = 18 \/ T = 29).
Proof.
  intros out [| p ps] w c w' rest E; cbn [STProcs] in E.
  - apply Ok_pair in E as [<- _]. exists 18, rest. auto.
  - destruct (OutSign out (tsig p) w) as [[a w1] | | |]; try discriminate. cbn [bind] in E. destruct (STProcs out ps w1) as [[b w2] | | |]; try discriminate. cbn [bind] in E.
    apply Ok_pair in E as [<- _]. exists 29. eexists. rewrite <- !app_assoc. split; [reflexivity | auto].
Qed.

Lemma step_close : forall s i r rho d r' rho' x, step (eq s) r rho d r' rho' -> rho i = None -> rho' i = Some s -> (forall i j s, rho' i = Some s -> rho' j = Some s -> i = j) ->
  nth_error (tys r') s = Some x -> corr g H rho' (mname r') i x -> step (fun _ => False) r rho d r' rho'.
Proof.
  intros s i r rho d r' rho' x [A1 A2 A3 A4 A5 A6 A7 A8] R R' INJ N C. constructor; auto.
  - intros t y Ny _ Q. apply A2; auto. intros <-. specialize (Q i R'). congruence.
  - intros j t Rj Rj' _. destruct (Nat.eq_dec s t) as [<- | D]; [| apply A7; auto]. rewrite (INJ j i s Rj' R'). exists x. auto.
Qed.

(** Sizes of types that have been read. *)
Lemma is_dyn_comp : forall e, is_dyn g (TS e) = (comp_of (sshape (str_of g e)) =? 3).
Proof. intros e. unfold is_dyn, shape_of. destruct (sshape (str_of g e)); reflexivity. Qed.
Lemma known_size : forall w r rho E b b' n, sim w r rho (std None E rho) -> tcorr rho b b' -> (forall e, b = TS e -> ~ E e) -> (1 <= n)%nat ->
  TypSize n b' r = Ok r /\ isize_of r b' = Ok (size_of g b) /\ icomp_of r b' = Ok (if is_dyn g b then 3 else match b with TS e => comp_of (sshape (str_of g e)) | _ => 1 end) /\
  (forall e, b = TS e -> exists s y, b' = TS s /\ nth_error (tys r) s = Some y /\ icomp y = comp_of (sshape (str_of g e)) /\ (is_dyn g (TS e) = true -> Dims g e (inum y))).
Proof.
  intros w r rho E b b' n SIM C NE L. destruct n as [| n]; [lia |]. destruct b as [f | z | z | e]; cbn [tcorr] in C.
  - subst b'. conjs. intros e Q. discriminate.
  - subst b'. conjs. intros e Q. discriminate.
  - subst b'. conjs. intros e Q. discriminate.
  - destruct C as (s & R & ->). destruct (ts_slot _ _ _ _ (sim_t _ _ _ _ SIM) _ _ R) as (y & N & ID & (F1 & F2 & F3 & F4)). destruct (F3 (NE e eq_refl)) as [F5 F6].
    pose proof (wf_strs _ _ WF e) as (_ & _ & _ & SZ & _). conjs.
    + cbn [TypSize]. unfold slot. rewrite N. cbn [bind]. rewrite F5. replace (ssize (str_of g e) =? -1) with false by lia. reflexivity.
    + cbn [isize_of]. unfold slot. rewrite N. cbn [bind]. rewrite F5. reflexivity.
    + cbn [icomp_of]. unfold slot. rewrite N. cbn [bind]. rewrite F2. rewrite is_dyn_comp. destruct (Z.eqb_spec (comp_of (sshape (str_of g e))) 3) as [-> |]; reflexivity.
    + intros e' Q. inversion Q; subst e'. exists s, y. auto.
Qed.
Lemma elem_known : forall E i b, early E (TS i) -> elem_type (sshape (str_of g i)) = Some b -> forall e, b = TS e -> ~ (e = i \/ E e).
Proof.
  intros E i b EA EL e -> [-> | Ee].
  - apply (wf_early _ _ WF i i (TS i)); [exact EL | | apply R_here; reflexivity].
    destruct (sshape (str_of g i)); cbn [elem_type early_part] in *; congruence.
  - destruct (EA e i Ee eq_refl) as (b & P & R). apply (wf_early _ _ WF i e b EL P R).
Qed.
Lemma ext_ok : forall w r rho E i d, Depth g i d -> sim w r rho (std None E rho) -> forall s x, rho i = Some s -> nth_error (tys r) s = Some x ->
  exists N, forall n, (N <= n)%nat -> ext_level n (ibase x) r = Ok d.
Proof.
  intros w r rho E i d D SIM. induction D as [i al n fs ps SH | i j d al n fs ps SH D IH]; intros s x R N; destruct (ts_slot _ _ _ _ (sim_t _ _ _ _ SIM) _ _ R) as (x0 & N0 & _ & (_ & _ & _ & F));
    rewrite N in N0; inversion N0; subst x0; specialize (F ltac:(discriminate)); rewrite SH in F.
  - exists 1%nat. intros [| k] L; [lia |]. rewrite F. reflexivity.
  - destruct F as (b' & -> & (sj & Rj & ->)). destruct (ts_slot _ _ _ _ (sim_t _ _ _ _ SIM) _ _ Rj) as (y & Ny & _). destruct (IH sj y Rj Ny) as (M & P).
    exists (S M). intros [| k] L; [lia |]. cbn [ext_level]. unfold slot. rewrite Ny. cbn [bind]. rewrite P by lia. reflexivity.
Qed.
Lemma std_sub : forall X (E E' : nat -> Prop) rho i x, (E i -> E' i) -> std X E rho i x -> std X E' rho i x.
Proof. intros X E E' rho i x S (A & B & C & D). unfold std. conjs. Qed.

(** ** The forms of types *)
Definition head (w : wst) (r : rd) (rho : rtype) (E : nat -> Prop) (i s : nat) (x : istr) : Prop :=
  rho i = Some s /\ nth_error (tys r) s = Some x /\ iname x = sname_ i /\ midx r (modname g i) = Some (imno x) /\ iflag x = sysflag (str_of g i) /\ iflds x = [] /\ itree x = Leaf /\ ipars x = [] /\
  (icomp x = 1 \/ icomp x = comp_of (sshape (str_of g i))) /\ (isize x = -1 \/ isize x = ssize (str_of g i)) /\
  sim w r rho (fun j y => j = i \/ std None E rho j y).
Definition result (E : nat -> Prop) (i s : nat) (tag : Z) (r : rd) (rho : rtype) (w' : wst) (rest : list Z) : Prop :=
  exists N r' rho' x', (forall n, (N <= n)%nat -> InShape (InStruct n self) n s tag r = Ok r') /\ inp r' = rest /\ nth_error (tys r') s = Some x' /\ rho' i = Some s /\
    corr g H rho' (mname r') i x' /\ sim w' r' rho' (std None E rho') /\ step (eq s) r rho None r' rho'.
Lemma midx_step : forall O r rho d r' rho' m n, step O r rho d r' rho' -> midx r n = Some m -> mname r' m = Some n.
Proof. intros O r rho d r' rho' m n ST M. apply midx_mname, (p_midx _ _ _ _ _ _ ST), M. Qed.

Lemma Shape_ptr : forall f, reads f -> forall i b w bs w' rho E r s x rest, sshape (str_of g i) = Pointer b -> SOut g H f b w = Ok (bs, w') -> inp r = bs ++ rest ->
  early E (TS i) -> head w r rho E i s x -> result E i s 36 r rho w' rest.
Proof.
  intros f RD i b w bs w' rho E r s x rest SH OUT I EA (R & N & HN & HM & HF & _ & _ & _ & HC & HS & SIM).
  pose proof (wf_strs _ _ WF i) as (_ & _ & _ & _ & OS). rewrite SH in OS. destruct OS as [OB OS].
  assert (C1 : icomp x = 1) by (rewrite SH in HC; cbn [comp_of] in HC; destruct HC; assumption).
  set (x1 := set_num (set_size (set_form x 11 (icomp x)) AddressSize) 0).
  set (r1 := set_tys r (upd_nth (tys r) s x1)).
  assert (S1 : sim w r1 rho (std None E rho)).
  { apply (sim_change w r rho _ (std None E rho) i s x x1 SIM R N eq_refl eq_refl).
    - intros _ _. unfold std, is_dyn, shape_of. rewrite SH. cbn [form_of comp_of]. conjs. intros _. rewrite OS. split; [reflexivity | discriminate].
    - intros j y D [-> | P]; [contradiction | exact P]. }
  destruct (RD _ _ _ _ OUT rho None E r1 (Some s) rest I S1 OB) as (N2 & r2 & rho2 & t' & P2 & I2 & C2 & S2 & ST2).
  { apply (early_sub _ _ _ EA). rewrite SH. left. reflexivity. }
  { exists i. split; [exact R |]. unfold is_record, shape_of. rewrite SH. reflexivity. }
  assert (N1 : nth_error (tys r1) s = Some x1) by (apply (upd_nth_same _ _ _ _ _ N)).
  pose proof (step_keep _ _ _ _ _ _ _ _ _ _ S2 ST2 R N1) as N3. cbn [option_map] in N3. rewrite Nat.eqb_refl in N3.
  exists N2, r2, rho2, (set_base x1 (Some t')). conjs.
  - intros n L. unfold InShape. change (36 =? 36) with true. cbv iota. rewrite (change_ok r s x) by exact N. cbn [bind]. fold x1. fold r1. rewrite P2 by exact L. reflexivity.
  - apply (p_rho _ _ _ _ _ _ ST2), R.
  - unfold corr. rewrite SH. cbn [form_of comp_of]. conjs; try (apply (midx_step _ _ _ _ _ _ _ _ ST2), HM); try (rewrite OS; reflexivity). exists t'. auto.
  - apply (step_trans _ _ _ _ r1 rho _ _ (ts_inj _ _ _ _ (sim_t _ _ _ _ S2))); [apply step_change; reflexivity | apply (step_weaken _ s t' _ _ _ _ eq_refl), ST2].
Qed.
Lemma Shape_proc : forall f, reads f -> forall i sg w bs w' rho E r s x rest, sshape (str_of g i) = Proc sg -> OutSign (SOut g H f) sg w = Ok (bs, w') -> inp r = bs ++ rest ->
  early E (TS i) -> head w r rho E i s x -> result E i s 40 r rho w' rest.
Proof.
  intros f RD i b w bs w' rho E r s x rest SH OUT I EA (R & N & HN & HM & HF & _ & _ & _ & HC & HS & SIM).
  pose proof (wf_strs _ _ WF i) as (_ & _ & _ & _ & OS). rewrite SH in OS. destruct OS as [OB OS].
  assert (C1 : icomp x = 1) by (rewrite SH in HC; cbn [comp_of] in HC; destruct HC; assumption).
  set (x1 := set_size (set_form x 12 (icomp x)) AddressSize).
  set (r1 := set_tys r (upd_nth (tys r) s x1)).
  assert (S1 : sim w r1 rho (std None E rho)).
  { apply (sim_change w r rho _ (std None E rho) i s x x1 SIM R N eq_refl eq_refl).
    - intros _ _. unfold std, is_dyn, shape_of. rewrite SH. cbn [form_of comp_of]. conjs. intros _. rewrite OS. split; [reflexivity | discriminate].
    - intros j y D [-> | P]; [contradiction | exact P]. }
  destruct (InSign_ok f RD _ _ _ _ rho E r1 (Some s) rest OUT I S1 OB) as (N2 & r2 & rho2 & sg' & P2 & I2 & C2 & S2 & ST2).
  { intros t J. apply (early_sub _ _ _ EA). rewrite SH. exact J. }
  { exists i. split; [exact R |]. unfold is_record, shape_of. rewrite SH. reflexivity. }
  assert (N1 : nth_error (tys r1) s = Some x1) by (apply (upd_nth_same _ _ _ _ _ N)).
  pose proof (step_keep _ _ _ _ _ _ _ _ _ _ S2 ST2 R N1) as N3. cbn [option_map] in N3. rewrite Nat.eqb_refl in N3.
  set (x2 := set_base x1 (Some (sres sg'))) in *. set (x3 := set_pars x2 (spar sg')). set (r3 := set_tys r2 (upd_nth (tys r2) s x3)).
  assert (R2 : rho2 i = Some s) by (apply (p_rho _ _ _ _ _ _ ST2), R).
  assert (ST3 : step (eq s) r rho None r3 rho2).
  { apply (step_trans _ _ _ _ r2 rho2 _ _ (ts_inj _ _ _ _ (sim_t _ _ _ _ S2))); [| apply step_change; reflexivity].
    apply (step_trans _ _ _ _ r1 rho _ _ (ts_inj _ _ _ _ (sim_t _ _ _ _ S2))); [apply step_change; reflexivity | apply (step_weaken _ s (sres sg') _ _ _ _ eq_refl), ST2]. }
  exists N2, r3, rho2, x3. conjs.
  - intros n L. unfold InShape. change (40 =? 36) with false. change (40 =? 37) with false. change (40 =? 38) with false. change (40 =? 39) with false. change (40 =? 40) with true. cbv iota.
    rewrite (change_ok r s x) by exact N. cbn [bind]. fold x1. fold r1. rewrite P2 by exact L. cbn [bind]. rewrite (change_ok r2 s x2) by exact N3. reflexivity.
  - apply (upd_nth_same _ _ _ _ _ N3).
  - unfold corr. rewrite SH. cbn [form_of comp_of]. conjs; try (apply (midx_step _ _ _ _ _ _ _ _ ST3), HM); try (rewrite OS; reflexivity). exists (sres sg'). split; [reflexivity |]. exact C2.
  - apply (sim_change w' r2 rho2 _ (std None E rho2) i s x2 x3 S2 R2 N3 eq_refl eq_refl); [intros _ P; exact P | auto].
Qed.
Lemma Shape_arr : forall f, reads f -> forall i b k w bs w' rho E r s x rest, sshape (str_of g i) = Array b k -> SOut g H f b w = Ok (bs, w') -> inp r = bs ++ num k ++ rest ->
  early E (TS i) -> head w r rho E i s x -> result E i s 37 r rho w' rest.
Proof.
  intros f RD i b k w bs w' rho E r s x rest SH OUT I EA (R & N & HN & HM & HF & _ & _ & _ & HC & HS & SIM).
  pose proof (wf_strs _ _ WF i) as (_ & _ & SB & S0 & OS). rewrite SH in OS. destruct OS as (OB & OK & OP & OS).
  set (E' := fun e => e = i \/ E e).
  set (x1 := set_form x 13 2).
  set (r1 := set_tys r (upd_nth (tys r) s x1)).
  assert (S1 : sim w r1 rho (std None E' rho)).
  { apply (sim_change w r rho _ (std None E' rho) i s x x1 SIM R N eq_refl eq_refl).
    - intros _ _. unfold std. rewrite SH. cbn [form_of comp_of]. conjs. intros NE. exfalso. apply NE. left. reflexivity.
    - intros j y D [-> | P]; [contradiction |]. revert P. apply std_sub. right. assumption. }
  destruct (RD _ _ _ _ OUT rho None E' r1 (Some s) (num k ++ rest) I S1 OB) as (N2 & r2 & rho2 & t' & P2 & I2 & C2 & S2 & ST2).
  { apply early_add; [apply (early_sub _ _ _ EA); rewrite SH; left; reflexivity |]. intros j ->. exists (TS j). rewrite SH. split; [reflexivity | apply R_here; reflexivity]. }
  { exists i. split; [exact R |]. unfold is_record, shape_of. rewrite SH. reflexivity. }
  assert (N1 : nth_error (tys r1) s = Some x1) by (apply (upd_nth_same _ _ _ _ _ N)).
  pose proof (step_keep _ _ _ _ _ _ _ _ _ _ S2 ST2 R N1) as N3. cbn [option_map] in N3. rewrite Nat.eqb_refl in N3.
  pose proof (SymRInt_num r2 k rest I2 OK) as Q3. match type of Q3 with _ = Ok (_, ?z) => set (r3 := z) in * end.
  set (x2 := set_base x1 (Some t')) in *. set (x3 := set_num x2 k). set (r4 := set_tys r3 (upd_nth (tys r3) s x3)).
  assert (R2 : rho2 i = Some s) by (apply (p_rho _ _ _ _ _ _ ST2), R).
  assert (S3 : sim w' r3 rho2 (std None E' rho2)) by (unfold r3; rewrite set_inp_false; revert S2; apply sim_same; reflexivity).
  assert (N3' : nth_error (tys r3) s = Some x2) by exact N3.
  assert (S4 : sim w' r4 rho2 (std None E' rho2)) by (apply (sim_change w' r3 rho2 _ (std None E' rho2) i s x2 x3 S3 R2 N3' eq_refl eq_refl); [intros _ (A1 & A2 & A3 & A4); unfold std; conjs; intros NE; exfalso; apply NE; left; reflexivity | auto]).
  assert (N4 : nth_error (tys r4) s = Some x3) by (apply (upd_nth_same _ _ _ _ _ N3')).
  set (x4 := set_size x3 (ssize (str_of g i))). set (r5 := set_tys r4 (upd_nth (tys r4) s x4)).
  assert (N5 : nth_error (tys r5) s = Some x4) by (apply (upd_nth_same _ _ _ _ _ N4)).
  assert (INJ := ts_inj _ _ _ _ (sim_t _ _ _ _ S2)).
  assert (ST5 : step (eq s) r rho None r5 rho2).
  { apply (step_trans _ _ _ _ r4 rho2 _ _ INJ); [| apply step_change; reflexivity]. apply (step_trans _ _ _ _ r3 rho2 _ _ INJ); [| apply step_change; reflexivity].
    apply (step_trans _ _ _ _ r2 rho2 _ _ INJ); [| unfold r3; rewrite set_inp_false; apply step_same; reflexivity].
    apply (step_trans _ _ _ _ r1 rho _ _ INJ); [apply step_change; reflexivity | apply (step_weaken _ s t' _ _ _ _ eq_refl), ST2]. }
  exists (S (S N2)), r5, rho2, x4. conjs.
  - intros n L. unfold InShape. change (37 =? 36) with false. change (37 =? 37) with true. cbv iota.
    rewrite (change_ok r s x) by exact N. cbn [bind]. fold x1. fold r1. rewrite P2 by lia. cbn [bind]. rewrite Q3. cbn [bind]. rewrite (change_ok r3 s x2) by exact N3. cbn [bind]. fold x3. fold r4.
    destruct n as [| n]; [lia |]. cbn [TypSize]. unfold slot. rewrite N4. cbn [bind]. change (isize x3) with (isize x). change (icomp x3) with 2. change (ibase x3) with (Some t').
    destruct (known_size w' r4 rho2 E' b t' n S4 C2 (elem_known E i b EA ltac:(rewrite SH; reflexivity)) ltac:(lia)) as (K1 & K2 & _).
    destruct HS as [-> | HS].
    + change (-1 =? -1) with true. cbn [negb]. cbv iota. change (2 =? 4) with false. change (2 =? 2) with true. cbv iota. rewrite K1. cbn [bind]. rewrite K2. cbn [bind]. rewrite (change_ok r4 s x3) by exact N4.
      change (inum x3) with k. rewrite <- OS. reflexivity.
    + rewrite HS. replace (ssize (str_of g i) =? -1) with false by lia. cbn [negb]. cbv iota. unfold r5, x4. rewrite <- HS. change (isize x) with (isize x3).
      replace (set_size x3 (isize x3)) with x3 by (destruct x3; reflexivity). unfold r4. cbn [set_tys tys]. rewrite upd_nth_twice. reflexivity.
  - unfold corr. rewrite SH. cbn [form_of comp_of]. conjs; [apply (midx_step _ _ _ _ _ _ _ _ ST5), HM |]. exists t'. auto.
  - apply (sim_change w' r4 rho2 _ (std None E rho2) i s x3 x4 S4 R2 N4 eq_refl eq_refl).
    + intros _ _. unfold std, is_dyn, shape_of. rewrite SH. cbn [form_of comp_of]. conjs. intros _. split; [reflexivity | discriminate].
    + intros j y D (A1 & A2 & A3 & A4). unfold std. conjs. intros NE. apply A3. intros [-> | Q]; auto.
Qed.
Lemma Shape_dyn : forall f, reads f -> forall i b w bs w' rho E r s x rest, sshape (str_of g i) = DynArr b -> SOut g H f b w = Ok (bs, w') -> inp r = bs ++ rest ->
  early E (TS i) -> head w r rho E i s x -> result E i s 38 r rho w' rest.
Proof.
  intros f RD i b w bs w' rho E r s x rest SH OUT I EA (R & N & HN & HM & HF & _ & _ & _ & HC & HS & SIM).
  pose proof (wf_strs _ _ WF i) as (_ & _ & SB & S0 & OS). rewrite SH in OS. destruct OS as (OB & OS).
  set (E' := fun e => e = i \/ E e).
  set (x1 := set_form x 13 3).
  set (r1 := set_tys r (upd_nth (tys r) s x1)).
  assert (S1 : sim w r1 rho (std None E' rho)).
  { apply (sim_change w r rho _ (std None E' rho) i s x x1 SIM R N eq_refl eq_refl).
    - intros _ _. unfold std. rewrite SH. cbn [form_of comp_of]. conjs. intros NE. exfalso. apply NE. left. reflexivity.
    - intros j y D [-> | P]; [contradiction |]. revert P. apply std_sub. right. assumption. }
  destruct (RD _ _ _ _ OUT rho None E' r1 (Some s) rest I S1 OB) as (N2 & r2 & rho2 & t' & P2 & I2 & C2 & S2 & ST2).
  { apply early_add; [apply (early_sub _ _ _ EA); rewrite SH; left; reflexivity |]. intros j ->. exists (TS j). rewrite SH. split; [reflexivity | apply R_here; reflexivity]. }
  { exists i. split; [exact R |]. unfold is_record, shape_of. rewrite SH. reflexivity. }
  assert (N1 : nth_error (tys r1) s = Some x1) by (apply (upd_nth_same _ _ _ _ _ N)).
  pose proof (step_keep _ _ _ _ _ _ _ _ _ _ S2 ST2 R N1) as N3. cbn [option_map] in N3. rewrite Nat.eqb_refl in N3.
  set (x2 := set_base x1 (Some t')) in *.
  assert (NK := elem_known E i b EA ltac:(rewrite SH; reflexivity)).
  assert (QD : exists k, (match t' with TS j => let* y := slot r2 j in if icomp y =? 3 then Ok (inum y + 1) else Ok 0 | _ => Ok 0 end) = Ok k /\ Dims g i k).
  { destruct (known_size w' r2 rho2 E' b t' 1 S2 C2 NK ltac:(lia)) as (_ & _ & _ & K4). destruct b as [q | q | q | e]; cbn [tcorr] in C2.
    - subst t'. exists 0. split; [reflexivity |]. apply (N_one g i _ SH). reflexivity.
    - subst t'. exists 0. split; [reflexivity |]. apply (N_one g i _ SH). reflexivity.
    - subst t'. exists 0. split; [reflexivity |]. apply (N_one g i _ SH). reflexivity.
    - destruct (K4 e eq_refl) as (sj & y & -> & Ny & CY & DY). unfold slot. rewrite Ny. cbn [bind]. rewrite CY, <- is_dyn_comp. destruct (is_dyn g (TS e)) eqn:ID.
      + exists (inum y + 1). split; [reflexivity |]. apply (N_more g i e _ SH ID (DY eq_refl)).
      + exists 0. split; [reflexivity |]. apply (N_one g i _ SH ID). }
  destruct QD as (k & Q3 & QD).
  set (x3 := set_num x2 k). set (r4 := set_tys r2 (upd_nth (tys r2) s x3)).
  assert (R2 : rho2 i = Some s) by (apply (p_rho _ _ _ _ _ _ ST2), R).
  assert (S4 : sim w' r4 rho2 (std None E' rho2)) by (apply (sim_change w' r2 rho2 _ (std None E' rho2) i s x2 x3 S2 R2 N3 eq_refl eq_refl); [intros _ (A1 & A2 & A3 & A4); unfold std; conjs; intros NE; exfalso; apply NE; left; reflexivity | auto]).
  assert (N4 : nth_error (tys r4) s = Some x3) by (apply (upd_nth_same _ _ _ _ _ N3)).
  set (x4 := set_size x3 (ssize (str_of g i))). set (r5 := set_tys r4 (upd_nth (tys r4) s x4)).
  assert (N5 : nth_error (tys r5) s = Some x4) by (apply (upd_nth_same _ _ _ _ _ N4)).
  assert (INJ := ts_inj _ _ _ _ (sim_t _ _ _ _ S2)).
  assert (ST5 : step (eq s) r rho None r5 rho2).
  { apply (step_trans _ _ _ _ r4 rho2 _ _ INJ); [| apply step_change; reflexivity]. apply (step_trans _ _ _ _ r2 rho2 _ _ INJ); [| apply step_change; reflexivity].
    apply (step_trans _ _ _ _ r1 rho _ _ INJ); [apply step_change; reflexivity | apply (step_weaken _ s t' _ _ _ _ eq_refl), ST2]. }
  exists (S (S N2)), r5, rho2, x4. conjs.
  - intros n L. unfold InShape. change (38 =? 36) with false. change (38 =? 37) with false. change (38 =? 38) with true. cbv iota.
    rewrite (change_ok r s x) by exact N. cbn [bind]. fold x1. fold r1. rewrite P2 by lia. cbn [bind]. rewrite Q3. cbn [bind]. rewrite (change_ok r2 s x2) by exact N3. cbn [bind]. fold x3. fold r4.
    destruct n as [| n]; [lia |]. cbn [TypSize]. unfold slot. rewrite N4. cbn [bind]. change (isize x3) with (isize x). change (icomp x3) with 3. change (ibase x3) with (Some t'). change (iform x3) with 13.
    destruct (known_size w' r4 rho2 E' b t' n S4 C2 NK ltac:(lia)) as (K1 & K2 & K3 & _).
    destruct HS as [-> | HS].
    + change (-1 =? -1) with true. cbn [negb]. cbv iota. change (3 =? 4) with false. change (3 =? 2) with false. change (13 =? 11) with false. change (13 =? 12) with false. change (3 =? 3) with true. cbv iota.
      rewrite K1. cbn [bind]. rewrite K2. cbn [bind]. rewrite K3. cbn [bind]. rewrite (change_ok r4 s x3) by exact N4. unfold r5, x4. rewrite OS. destruct (is_dyn g b) eqn:ID; [reflexivity |].
      destruct b as [| | | e]; try reflexivity. rewrite is_dyn_comp in ID. rewrite ID. reflexivity.
    + rewrite HS. replace (ssize (str_of g i) =? -1) with false by lia. cbn [negb]. cbv iota. unfold r5, x4. rewrite <- HS. change (isize x) with (isize x3).
      replace (set_size x3 (isize x3)) with x3 by (destruct x3; reflexivity). unfold r4. cbn [set_tys tys]. rewrite upd_nth_twice. reflexivity.
  - unfold corr. rewrite SH. cbn [form_of comp_of]. conjs; [apply (midx_step _ _ _ _ _ _ _ _ ST5), HM |]. exists t'. auto.
  - apply (sim_change w' r4 rho2 _ (std None E rho2) i s x3 x4 S4 R2 N4 eq_refl eq_refl).
    + intros _ _. unfold std, is_dyn, shape_of. rewrite SH. cbn [form_of comp_of]. conjs.
    + intros j y D (A1 & A2 & A3 & A4). unfold std. conjs. intros NE. apply A3. intros [-> | Q]; auto.
Qed.

(** The base type of a record. *)
Lemma Base_ok : forall f, reads f -> forall i base al k fs ps w bs w' rho E r s x rest, sshape (str_of g i) = Rec base al k fs ps ->
  SOut g H f (match base with None => TB 10 | Some b => b end) w = Ok (bs, w') -> inp r = bs ++ rest -> early E (TS i) -> head w r rho E i s x ->
  let E' := fun e => e = i \/ E e in
  exists N r' rho' x' d, (forall n, (N <= n)%nat ->
     (let* r := change s (fun x => set_form x 13 4) r in
      let* (b, r) := InStruct n self (Some s) r in
      let* r := match b with TB f => if f =? 10 then change s (fun x => set_base x None) r else Ok r | _ => Ok r end in
      let* x := slot r s in
      let* e := ext_level n (ibase x) r in Ok (e, r)) = Ok (d, r')) /\
    inp r' = rest /\ nth_error (tys r') s = Some x' /\ x' = set_base (set_form x 13 4) (ibase x') /\ rho' i = Some s /\ Depth g i d /\
    match base with None => ibase x' = None | Some b => exists b', ibase x' = Some b' /\ tcorr rho' b b' end /\
    sim w' r' rho' (std None E' rho') /\ step (eq s) r rho None r' rho'.
Proof.
  intros f RD i base al k fs ps w bs w' rho E r s x rest SH OUT I EA (R & N & HN & HM & HF & _ & _ & _ & HC & HS & SIM) E'.
  pose proof (wf_strs _ _ WF i) as (_ & _ & SB & S0 & OS). rewrite SH in OS. destruct OS as (OB & _).
  destruct (wf_depth _ _ WF i) as (d & D); [apply is_record_shape; eauto 10 |].
  set (x1 := set_form x 13 4). set (r1 := set_tys r (upd_nth (tys r) s x1)).
  assert (N1 : nth_error (tys r1) s = Some x1) by (apply (upd_nth_same _ _ _ _ _ N)).
  destruct base as [b |].
  - destruct b as [| | | j]; try contradiction.
    assert (S1 : sim w r1 rho (std (Some i) E' rho)).
    { apply (sim_change w r rho _ (std (Some i) E' rho) i s x x1 SIM R N eq_refl eq_refl).
      - intros _ _. unfold std. rewrite SH. cbn [form_of comp_of]. conjs; [| congruence]. intros NE. exfalso. apply NE. left. reflexivity.
      - intros j' y D' [-> | (A1 & A2 & A3 & A4)]; [contradiction |]. unfold std. conjs; [| intros _; apply A4; discriminate]. intros NE. apply A3. intros Q. apply NE. right. exact Q. }
    destruct (RD _ _ _ _ OUT rho (Some i) E' r1 (Some s) rest I S1 Logic.I) as (N2 & r2 & rho2 & t' & P2 & I2 & C2 & S2 & ST2).
    { apply early_add; [apply (early_sub _ _ _ EA); rewrite SH; left; reflexivity |]. intros j' Q. exists (TS j). rewrite SH. split; [reflexivity | apply R_here, Q]. }
    { exists i. split; [exact R |]. split; [reflexivity |]. eauto. }
    pose proof (step_keep _ _ _ _ _ _ _ _ _ _ S2 ST2 R N1) as N3. cbn [option_map] in N3. rewrite Nat.eqb_refl in N3.
    set (x2 := set_base x1 (Some t')) in *.
    assert (R2 : rho2 i = Some s) by (apply (p_rho _ _ _ _ _ _ ST2), R).
    destruct (ext_ok _ _ _ _ _ _ D S2 s x2 R2 N3) as (N4 & P4).
    exists (N2 + N4)%nat, r2, rho2, x2, d. conjs.
    + intros n L. rewrite (change_ok r s x) by exact N. cbn [bind]. fold x1. fold r1. rewrite P2 by lia. cbn [bind]. destruct C2 as (sj & Rj & ->). cbn [bind]. unfold slot. rewrite N3. cbn [bind]. rewrite P4 by lia. reflexivity.
    + exists t'. auto.
    + apply (step_trans _ _ _ _ r1 rho _ _ (ts_inj _ _ _ _ (sim_t _ _ _ _ S2))); [apply step_change; reflexivity | apply (step_weaken _ s t' _ _ _ _ eq_refl), ST2].
  - destruct f as [| f]; [discriminate |]. cbn [SOut] in OUT. apply Ok_pair in OUT as [<- <-].
    pose proof (SymRInt_num r1 (-10) rest I ltac:(apply in_int32; lia)) as Q1. match type of Q1 with _ = Ok (_, ?z) => set (r2 := z) in * end.
    set (x2 := set_base x1 (Some (TB 10))). set (r3 := set_tys r2 (upd_nth (tys r2) s x2)).
    assert (N2 : nth_error (tys r2) s = Some x1) by exact N1.
    assert (N3 : nth_error (tys r3) s = Some x2) by (apply (upd_nth_same _ _ _ _ _ N2)).
    set (x3 := set_base x2 None). set (r4 := set_tys r3 (upd_nth (tys r3) s x3)).
    assert (N4 : nth_error (tys r4) s = Some x3) by (apply (upd_nth_same _ _ _ _ _ N3)).
    assert (S0' : sim w r1 rho (fun j y => j = i \/ std None E rho j y)) by (apply (sim_change w r rho _ _ i s x x1 SIM R N eq_refl eq_refl); auto).
    assert (S2 : sim w r2 rho (fun j y => j = i \/ std None E rho j y)) by (unfold r2; rewrite set_inp_false; revert S0'; apply sim_same; reflexivity).
    assert (S3 : sim w r3 rho (fun j y => j = i \/ std None E rho j y)) by (apply (sim_change w r2 rho _ _ i s x1 x2 S2 R N2 eq_refl eq_refl); auto).
    assert (S4 : sim w r4 rho (std None E' rho)).
    { apply (sim_change w r3 rho _ _ i s x2 x3 S3 R N3 eq_refl eq_refl).
      - intros _ _. unfold std. rewrite SH. cbn [form_of comp_of]. conjs. intros NE. exfalso. apply NE. left. reflexivity.
      - intros j' y D' [-> | P]; [contradiction |]. revert P. apply std_sub. right. assumption. }
    destruct (ext_ok _ _ _ _ _ _ D S4 s x3 R N4) as (N5 & P5).
    assert (INJ := ts_inj _ _ _ _ (sim_t _ _ _ _ S4)).
    exists (S N5)%nat, r4, rho, x3, d. conjs.
    + intros [| n] L; [lia |]. rewrite (change_ok r s x) by exact N. cbn [bind]. fold x1. fold r1. cbn [InStruct]. rewrite Q1. cbn [bind]. change (-10 =? 34) with false. cbn [negb]. cbv iota. cbn [InTyp]. change (InTyp (- -10) r2) with (Ok (TB 10, r2)). cbn [bind assign].
      rewrite (change_ok r2 s x1) by exact N2. cbn [bind]. fold x2. fold r3. change (10 =? 10) with true. cbv iota. rewrite (change_ok r3 s x2) by exact N3. cbn [bind]. fold x3. fold r4.
      unfold slot. rewrite N4. cbn [bind]. rewrite P5 by lia. reflexivity.
    + apply (step_trans _ _ _ _ r3 rho _ _ INJ); [| apply step_change; reflexivity]. apply (step_trans _ _ _ _ r2 rho _ _ INJ); [| apply step_change; reflexivity].
      apply (step_trans _ _ _ _ r1 rho _ _ INJ); [apply step_change; reflexivity |]. unfold r2. rewrite set_inp_false. apply step_same; reflexivity.
Qed.
Lemma exported_in : forall p ps, In p (exported ps) <-> In p ps /\ tvis p <> Internal.
Proof. intros p ps. unfold exported. rewrite filter_In. destruct (tvis p); intuition congruence. Qed.
Lemma Shape_rec : forall f, reads f -> forall i base al k fs ps w a w1 b w2 c w' rho E r s x rest, sshape (str_of g i) = Rec base al k fs ps ->
  SOut g H f (match base with None => TB 10 | Some b => b end) w = Ok (a, w1) -> SFlds H (SOut g H f) fs (set_cnt w1 0) = Ok (b, w2) -> STProcs (SOut g H f) (exported ps) w2 = Ok (c, w') ->
  inp r = a ++ num (ssize (str_of g i)) ++ num al ++ num k ++ b ++ c ++ num 18 ++ rest ->
  early E (TS i) -> head w r rho E i s x -> result E i s 39 r rho w' rest.
Proof.
  intros f RD i base al k fs ps w a w1 b w2 c w' rho E r s x rest SH OA OB OC I EA HD.
  destruct (Base_ok f RD i base al k fs ps w a w1 rho E r s x _ SH OA I EA HD) as (N1 & r1 & rho1 & x1 & d & P1 & I1 & Nx & X1 & R1 & D & CB & S1 & ST1).
  destruct HD as (R & N & HN & HM & HF & HL & HT & _ & HC & HS & SIM).
  pose proof (wf_strs _ _ WF i) as (_ & _ & SB & S0 & OS). rewrite SH in OS. destruct OS as (OB' & OAL & OK & OFS & OPS).
  set (E' := fun e => e = i \/ E e) in *.
  pose proof (SymRInt_num r1 _ _ I1 SB) as Q2. match type of Q2 with _ = Ok (_, ?z) => set (r2 := z) in * end.
  pose proof (SymRInt_num r2 al _ eq_refl OAL) as Q3. match type of Q3 with _ = Ok (_, ?z) => set (r3 := z) in * end.
  pose proof (SymRInt_num r3 k _ eq_refl OK) as Q4. match type of Q4 with _ = Ok (_, ?z) => set (r4 := z) in * end.
  set (x2 := set_num (set_align (set_size (set_ext x1 d) (ssize (str_of g i))) al) k). set (r5 := set_tys r4 (upd_nth (tys r4) s x2)).
  assert (N4 : nth_error (tys r4) s = Some x1) by exact Nx.
  assert (N5 : nth_error (tys r5) s = Some x2) by (apply (upd_nth_same _ _ _ _ _ N4)).
  assert (S4 : sim w1 r4 rho1 (std None E' rho1)) by (unfold r4, r3, r2; rewrite !set_inp_false; revert S1; apply sim_same; reflexivity).
  assert (S5 : sim (set_cnt w1 0) r5 rho1 (std None E rho1)).
  { apply sim_cnt. apply (sim_change w1 r4 rho1 _ (std None E rho1) i s x1 x2 S4 R1 N4 eq_refl eq_refl).
    - intros _ (A1 & A2 & A3 & A4). unfold std. conjs. intros _. split; [reflexivity |]. unfold is_dyn, shape_of. rewrite SH. discriminate.
    - intros j y DJ (A1 & A2 & A3 & A4). unfold std. conjs. intros NE. apply A3. intros [-> | Q]; auto. }
  destruct (InFlds_ok f RD fs _ _ _ rho1 E r5 s x2 i _ OB eq_refl S5 R1 N5 OFS) as (N6 & r6 & rho6 & fs' & P6 & I6 & C6 & X6 & S6 & ST6).
  { intros q J V. apply (early_sub _ _ _ EA). rewrite SH. cbn [refers]. apply in_or_app. right. apply in_or_app. left. apply in_map. apply filter_In. split; [exact J |]. destruct (fvis q); congruence. }
  assert (R6 : rho6 i = Some s) by (apply (p_rho _ _ _ _ _ _ ST6), R1).
  destruct (InTProcs_ok f RD (exported ps) _ _ _ rho6 E r6 s _ i rest OC I6 S6 R6 X6) as (N7 & r7 & rho7 & ps' & P7 & I7 & C7 & X7 & S7 & ST7).
  { apply Forall_forall. intros p J. apply exported_in in J as [J _]. rewrite Forall_forall in OPS. apply OPS, J. }
  { intros p J. apply exported_in in J as [_ J]. exact J. }
  { intros p t J Jt. apply (early_sub _ _ _ EA). rewrite SH. cbn [refers]. apply in_or_app. right. apply in_or_app. right. apply in_flat_map. exists p. auto. }
  assert (ST : step (eq s) r rho None r7 rho7).
  { assert (INJ := ts_inj _ _ _ _ (sim_t _ _ _ _ S7)). assert (INJ6 := ts_inj _ _ _ _ (sim_t _ _ _ _ S6)). assert (INJ1 := ts_inj _ _ _ _ (sim_t _ _ _ _ S1)).
    apply (step_trans _ _ _ _ r6 rho6 _ _ INJ); [| exact ST7]. apply (step_trans _ _ _ _ r5 rho1 _ _ INJ6); [| exact ST6]. apply (step_trans _ _ _ _ r4 rho1 _ _ INJ1); [| apply step_change; reflexivity].
    apply (step_trans _ _ _ _ r1 rho1 _ _ INJ1); [exact ST1 |]. unfold r4, r3, r2. rewrite !set_inp_false. apply step_same; reflexivity. }
  destruct (fold_add_fld fs' x2) as (G1 & G2 & G3). pose proof (fold_add_proc ps' (fold_left add_fld fs' x2)) as G4.
  assert (XL : iflds x2 = [] /\ itree x2 = Leaf) by (unfold x2; rewrite X1; auto). destruct XL as [XL1 XL2]. rewrite XL1 in G1. rewrite XL2 in G2. cbn [app] in G1.
  set (y := fold_left add_fld fs' x2) in *.
  destruct (STProcs_head _ _ _ _ _ rest OC) as (T & l & HT1 & HT2). rewrite HT1 in I6.
  pose proof (SymRInt_num r6 T l I6 ltac:(apply in_int32; lia)) as Q6.
  exists (N1 + N6 + N7)%nat, r7, rho7, (fold_left add_proc ps' y). conjs.
  - intros n L. unfold InShape. change (39 =? 36) with false. change (39 =? 37) with false. change (39 =? 38) with false. change (39 =? 39) with true. cbv iota.
    specialize (P1 n ltac:(lia)). destruct (change s (fun x => set_form x 13 4) r) as [ra | | |]; try discriminate. cbn [bind] in P1 |- *.
    destruct (InStruct n self (Some s) ra) as [[bb rb] | | |]; try discriminate. cbn [bind] in P1 |- *.
    match type of P1 with (let* r0 := ?m in _) = _ => destruct m as [rc | | |]; try discriminate end. cbn [bind] in P1 |- *.
    destruct (slot rc s) as [xc | | |]; try discriminate. cbn [bind] in P1 |- *.
    destruct (ext_level n (ibase xc) rc) as [e | | |]; try discriminate. cbn [bind] in P1 |- *. apply Ok_pair in P1 as [-> ->].
    rewrite Q2. cbn [bind]. rewrite Q3. cbn [bind]. rewrite Q4. cbn [bind]. rewrite (change_ok r4 s x1) by exact N4. cbn [bind]. fold x2. fold r5.
    specialize (P6 n n T _ ltac:(lia) ltac:(lia) Q6 ltac:(lia)). destruct (SymRInt r5) as [[tg rr] | | |]; try discriminate. cbn [bind] in P6 |- *. rewrite P6. cbn [bind].
    specialize (P7 n n ltac:(lia) ltac:(lia)). rewrite Q6 in P7. exact P7.
  - apply (p_rho _ _ _ _ _ _ ST7), R6.
  - rewrite G4. unfold corr. rewrite SH. cbn [form_of comp_of]. rewrite G3. unfold x2. rewrite X1.
    cbn [set_tree set_flds set_num set_align set_size set_ext set_base set_form iform icomp imno iname iflag inum isize ialign iext ibase iflds itree ipars].
    assert (M7 : forall j t, rho1 j = Some t -> rho7 j = Some t) by (intros j t J; apply (p_rho _ _ _ _ _ _ ST7), (p_rho _ _ _ _ _ _ ST6), J).
    conjs; try (apply (midx_step _ _ _ _ _ _ _ _ ST), HM).
    + destruct base as [bb |]; [| exact CB]. destruct CB as (b' & CB1 & CB2). exists b'. split; [exact CB1 | apply (tcorr_mono _ _ _ _ M7 CB2)].
    + rewrite G1. apply (Forall2_mono _ _ _ _ _ _ (fun u v => fcorr_mono _ _ u v (p_rho _ _ _ _ _ _ ST7)) C6).
    + exists ps'. split; [exact C7 |]. intros nm. rewrite G1, G2. rewrite !find_ins_all. cbn [find].
      clear. induction fs' as [| q fs' IH]; cbn [map first app]; [reflexivity |]. destruct (list_eq_dec Z.eq_dec nm (member_name (MF q))); [reflexivity | exact IH].
Qed.

(** ** All types *)
Lemma assign_ok : forall w r rho X E dst t t', sim w r rho (std X E rho) -> dst_ok X dst rho t -> tcorr rho t t' ->
  exists r', assign dst t' r = Ok r' /\ inp r' = inp r /\ sim w r' rho (std None E rho) /\ step (fun _ => False) r rho (option_map (fun d => (d, t')) dst) r' rho.
Proof.
  intros w r rho X E dst t t' SIM DST TC. unfold assign, dst_ok in *. destruct dst as [d |].
  - destruct DST as (i & R & DX). destruct (ts_slot _ _ _ _ (sim_t _ _ _ _ SIM) _ _ R) as (x & N & ID & P). rewrite (change_ok r d x) by exact N. eexists. split; [reflexivity |]. split; [reflexivity |]. split.
    + apply (sim_change w r rho _ (std None E rho) i d x (set_base x (Some t')) SIM R N eq_refl eq_refl).
      * intros _ (A1 & A2 & A3 & A4). unfold std. conjs. intros _. destruct X as [xx |].
        -- destruct DX as (_ & al & n & fs & ps & SH). rewrite SH. exists t'. auto.
        -- destruct (sshape (str_of g i)) as [| | | | bb al n fs ps] eqn:SH; auto. assert (is_record g (TS i) = true) by (apply is_record_shape; eauto 10). congruence.
      * intros j y D (A1 & A2 & A3 & A4). unfold std. conjs. intros _. apply A4. intros ->. destruct DX as [-> _]. contradiction.
    + constructor; auto.
      * intros s y Ny _ _. cbn [option_map set_tys tys]. destruct (Nat.eqb_spec d s) as [<- | D]; [rewrite N in Ny; inversion Ny; subst y; apply (upd_nth_same _ _ _ _ _ N) | rewrite upd_nth_other by exact D; exact Ny].
      * intros j s A B. congruence.
  - subst X. exists r. conjs. apply step_refl.
Qed.
Lemma reads_short : forall w r rho X E dst t t' tag l rest, sim w r rho (std X E rho) -> dst_ok X dst rho t -> tcorr rho t t' -> inp r = num tag ++ l -> in_int 32 tag -> tag <> 34 ->
  (forall r1, inp r1 = l -> refs r1 = refs r -> InTyp (- tag) r1 = Ok (t', set_inp r1 rest false)) ->
  exists N r' rho' t', (forall n, (N <= n)%nat -> InStruct n self dst r = Ok (t', r')) /\ inp r' = rest /\ tcorr rho' t t' /\
      sim w r' rho' (std None E rho') /\ step (fun _ => False) r rho (option_map (fun d => (d, t')) dst) r' rho'.
Proof.
  intros w r rho X E dst t t' tag l rest SIM DST TC I IT T34 TY.
  pose proof (SymRInt_num r tag l I IT) as Q1. match type of Q1 with _ = Ok (_, ?z) => set (r1 := z) in * end.
  specialize (TY r1 eq_refl eq_refl). set (r2 := set_inp r1 rest false) in *.
  assert (S2 : sim w r2 rho (std X E rho)) by (unfold r2, r1; rewrite !set_inp_false; revert SIM; apply sim_same; reflexivity).
  destruct (assign_ok w r2 rho X E dst t t' S2 DST TC) as (r' & A & I' & S' & ST). exists 1%nat, r', rho, t'. conjs.
  - intros [| n] L; [lia |]. cbn [InStruct]. rewrite Q1. cbn [bind]. replace (tag =? 34) with false by lia. cbn [negb]. cbv iota. rewrite TY. cbn [bind]. rewrite A. reflexivity.
  - destruct ST as [A1 A2 A3 A4 A5 A6 A7 A8]. unfold r2, r1 in *. rewrite !set_inp_false in *. constructor; auto.
Qed.
Theorem reads_all : forall f, reads f.
Proof.
  induction f as [| f IH]; intros t w bs w' OUT rho X E r dst rest I SIM OT EA DST; [discriminate |]. cbn [SOut] in OUT. destruct t as [z | z | z | i].
  - apply Ok_pair in OUT as [<- <-]. cbn [ok_ty] in OT. apply (reads_short w r rho X E dst (TB z) (TB z) (- z) rest rest SIM DST eq_refl I); [apply in_int32; lia | lia |].
    intros r1 I1 _. rewrite Z.opp_involutive. unfold InTyp. replace (z =? 4) with false by lia. replace (z =? 7) with false by lia. replace ((0 <=? z) && (z <? 12)) with true by lia.
    rewrite set_inp_false. rewrite <- I1. destruct r1; reflexivity.
  - apply Ok_pair in OUT as [<- <-]. cbn [ok_ty] in OT. rewrite <- app_assoc in I. apply (reads_short w r rho X E dst (TInt z) (TInt z) (-4) _ rest SIM DST eq_refl I); [apply in_int32; lia | lia |].
    intros r1 I1 _. change (- -4) with 4. unfold InTyp. change (4 =? 4) with true. cbv iota. rewrite (SymRInt_num r1 z rest I1) by (apply in_int32; lia). cbn [bind].
    unfold IntType. destruct OT as [-> | [-> | [-> | ->]]]; reflexivity.
  - apply Ok_pair in OUT as [<- <-]. cbn [ok_ty] in OT. rewrite <- app_assoc in I. apply (reads_short w r rho X E dst (TSet z) (TSet z) (-7) _ rest SIM DST eq_refl I); [apply in_int32; lia | lia |].
    intros r1 I1 _. change (- -7) with 7. unfold InTyp. change (7 =? 4) with false. change (7 =? 7) with true. cbv iota. rewrite (SymRInt_num r1 z rest I1) by (apply in_int32; lia). cbn [bind].
    unfold SetType. destruct OT as [-> | ->]; reflexivity.
  - destruct (wref w i) as [k |] eqn:WR.
    + apply Ok_pair in OUT as [<- <-]. pose proof (sim_t _ _ _ _ SIM) as T. destruct (rho i) as [s |] eqn:R; [| apply (ts_dom _ _ _ _ T) in R; congruence].
      destruct (ts_ref _ _ _ _ T _ _ _ R WR) as [KB RR]. pose proof (sim_b _ _ _ _ SIM) as SBd. unfold maxStruct in SBd.
      apply (reads_short w r rho X E dst (TS i) (TS s) (- k) rest rest SIM DST (ex_intro _ s (conj R eq_refl)) I); [apply in_int32; lia | lia |].
      intros r1 I1 R1. rewrite Z.opp_involutive. unfold InTyp. replace (k =? 4) with false by lia. replace (k =? 7) with false by lia. replace ((0 <=? k) && (k <? 12)) with false by lia. rewrite R1, RR.
      rewrite set_inp_false. rewrite <- I1. destruct r1; reflexivity.
    + cbn zeta in OUT. destruct (Z.geb_spec (wnext w + 1) maxStruct) as [| B1]; [discriminate |]. fold (w_new w i) in OUT.
      destruct (OutMod g (smno (str_of g i)) (w_new w i)) as [[m w1] | | |] eqn:OM; try discriminate. cbn [bind] in OUT.
      destruct (SShape H (SOut g H f) (sshape (str_of g i)) (ssize (str_of g i)) w1) as [[b w2] | | |] eqn:OS; try discriminate. cbn [bind] in OUT. apply Ok_pair in OUT as [<- <-]. rewrite <- !app_assoc in I.
      assert (BK : exists k b', b = num k ++ b' /\ 36 <= k <= 40 /\ forall r1 rho1 s x1, inp r1 = b' ++ rest -> head w1 r1 rho1 E i s x1 -> result E i s k r1 rho1 w2 rest).
      { unfold SShape in OS. destruct (sshape (str_of g i)) as [bt | sg | bt n | bt | base al n fs ps] eqn:SH.
        - destruct (SOut g H f bt w1) as [[a wa] | | |] eqn:OA; try discriminate. cbn [bind] in OS. apply Ok_pair in OS as [<- <-]. eexists _, _. split; [reflexivity |]. split; [lia |].
          intros r1 rho1 s x1 I1 HD. apply (Shape_ptr f IH i bt w1 a wa rho1 E r1 s x1 rest SH OA I1 EA HD).
        - destruct (OutSign (SOut g H f) sg w1) as [[a wa] | | |] eqn:OA; try discriminate. cbn [bind] in OS. apply Ok_pair in OS as [<- <-]. eexists _, _. split; [reflexivity |]. split; [lia |].
          intros r1 rho1 s x1 I1 HD. apply (Shape_proc f IH i sg w1 a wa rho1 E r1 s x1 rest SH OA I1 EA HD).
        - destruct (SOut g H f bt w1) as [[a wa] | | |] eqn:OA; try discriminate. cbn [bind] in OS. apply Ok_pair in OS as [<- <-]. eexists _, _. split; [reflexivity |]. split; [lia |].
          intros r1 rho1 s x1 I1 HD. rewrite <- app_assoc in I1. apply (Shape_arr f IH i bt n w1 a wa rho1 E r1 s x1 rest SH OA I1 EA HD).
        - destruct (SOut g H f bt w1) as [[a wa] | | |] eqn:OA; try discriminate. cbn [bind] in OS. apply Ok_pair in OS as [<- <-]. eexists _, _. split; [reflexivity |]. split; [lia |].
          intros r1 rho1 s x1 I1 HD. apply (Shape_dyn f IH i bt w1 a wa rho1 E r1 s x1 rest SH OA I1 EA HD).
        - destruct (SOut g H f (match base with None => TB 10 | Some b => b end) w1) as [[a wa] | | |] eqn:OA; try discriminate. cbn [bind] in OS.
          destruct (SFlds H (SOut g H f) fs (set_cnt wa 0)) as [[bb wb] | | |] eqn:OB; try discriminate. cbn [bind] in OS.
          destruct (STProcs (SOut g H f) (exported ps) wb) as [[c wc] | | |] eqn:OC; try discriminate. cbn [bind] in OS. apply Ok_pair in OS as [<- <-]. eexists _, _. split; [reflexivity |]. split; [lia |].
          intros r1 rho1 s x1 I1 HD. rewrite <- !app_assoc in I1. apply (Shape_rec f IH i base al n fs ps w1 a wa bb wb c wc rho1 E r1 s x1 rest SH OA OB OC I1 EA HD). }
      destruct BK as (k & b' & -> & KB & SHP). rewrite <- app_assoc in I.
      destruct (header_ok w r rho X E dst i m w1 k b' rest SIM DST WR B1 OM I KB) as (s & x1 & r1 & P1 & I1 & R & N1 & F1 & F2 & F3 & F4 & F5 & F6 & F7 & F8 & S1 & ST1).
      destruct (SHP r1 (upd rho i s) s x1 I1) as (N2 & r2 & rho2 & x2 & P2 & I2 & Nx2 & R2 & C2 & S2 & ST2).
      { unfold head. conjs. unfold upd. rewrite Nat.eqb_refl. reflexivity. }
      exists (S N2), r2, rho2, (TS s). conjs.
      * intros [| n] L; [lia |]. rewrite P1, P2 by lia. reflexivity.
      * exists s. auto.
      * apply (step_close s i r rho _ r2 rho2 x2); auto; [| apply (ts_inj _ _ _ _ (sim_t _ _ _ _ S2))].
        apply (step_trans _ _ _ _ r1 (upd rho i s) _ _ (ts_inj _ _ _ _ (sim_t _ _ _ _ S2))); [exact ST1 | exact ST2].
Qed.
End Sim.
