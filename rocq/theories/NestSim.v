(** * Procedures nested in procedures: the generated C does what the program means *)
From Verif Require Import Base NestSpec NestModel NestEqs NestProofs.
From Coq Require Import Arith.
Local Open Scope nat_scope.

Section Sim.
Variable P : prog.
Hypothesis ACC : accepted P = true.
Hypothesis SIM : simple P = true.

(** ** Levels *)
Lemma parent_lt : forall p q, parent P p = Some q -> q < p.
Proof.
  intros p q H. unfold parent in H. destruct (nth_error (procs P) p) as [pr|] eqn:E; [|discriminate].
  pose proof (proc_ok P ACC _ _ E) as K. unfold ok_proc in K. rewrite H in K.
  apply andb_true_iff in K. destruct K as (K & _). apply andb_true_iff in K. destruct K as (K & _).
  now apply Nat.ltb_lt.
Qed.

Lemma level_enough : forall n m p, p < n -> p < m -> level_n P n p = level_n P m p.
Proof.
  induction n as [|n IH]; intros [|m] p H1 H2; try lia. cbn [level_n].
  destruct (parent P p) as [q|] eqn:E; [|reflexivity]. apply parent_lt in E. f_equal. apply IH; lia.
Qed.

Lemma level_parent : forall p q, parent P p = Some q -> level P p = S (level P q).
Proof.
  intros p q H. unfold level at 1. cbn [level_n]. rewrite H. f_equal. apply parent_lt in H.
  apply level_enough; lia.
Qed.

Lemma anc_level : forall n p q, anc P n p q = true -> p = q \/ (level P q < level P p /\ q < p).
Proof.
  induction n as [|n IH]; intros p q H; cbn [anc] in H.
  - rewrite orb_false_r in H. left. now apply Nat.eqb_eq.
  - destruct (p =? q) eqn:E; [left; now apply Nat.eqb_eq|]. right. cbn [orb] in H.
    destruct (parent P p) as [r|] eqn:R; [|discriminate]. pose proof (level_parent _ _ R). pose proof (parent_lt _ _ R).
    destruct (IH _ _ H) as [->|L]; lia.
Qed.

Lemma sees_level : forall p q, sees P p q = true -> level P q = level P p -> q = p.
Proof. intros p q H L. destruct (anc_level _ _ _ H) as [E|E]; [congruence | lia]. Qed.

Lemma anc_child : forall n p q, anc P n p q = true -> p <> q ->
  exists c pr, nth_error (procs P) c = Some pr /\ p_parent pr = Some q.
Proof.
  induction n as [|n IH]; intros p q H N; cbn [anc] in H.
  - rewrite orb_false_r in H. apply Nat.eqb_eq in H. congruence.
  - destruct (p =? q) eqn:E; [apply Nat.eqb_eq in E; congruence|]. cbn [orb] in H.
    destruct (parent P p) as [r|] eqn:R; [|discriminate]. destruct (Nat.eq_dec r q) as [->|NE]; [|eauto].
    unfold parent in R. destruct (nth_error (procs P) p) as [pr|] eqn:Q; [|discriminate]. eauto.
Qed.

Lemma not_leaf : forall q c pr, nth_error (procs P) c = Some pr -> p_parent pr = Some q -> scope_leaf P q = false.
Proof.
  intros q c pr E1 E2. unfold scope_leaf. apply negb_false_iff. apply existsb_exists. exists pr.
  split; [eapply nth_error_In; eassumption|]. rewrite E2. apply Nat.eqb_refl.
Qed.

Definition body_refs (p : nat) : list ref :=
  match nth_error (procs P) p with Some pr => flat_map refs_stat (p_body pr) | None => [] end.

Lemma used_deeper_in : forall q i l k c pr, nth_error l c = Some pr -> level P q <> level P (k + c) ->
  In (RLoc q i) (flat_map refs_stat (p_body pr)) -> used_deeper P q i k l = true.
Proof.
  intros q i. induction l as [|x l IH]; intros k [|c] pr E N H; cbn [nth_error used_deeper] in *; try discriminate.
  - inversion E; subst x. apply orb_true_iff. left. apply andb_true_iff. rewrite Nat.add_0_r in N. split.
    + apply negb_true_iff, Nat.eqb_neq. assumption.
    + apply existsb_exists. exists (RLoc q i). split; [assumption|]. cbn. now rewrite !Nat.eqb_refl.
  - apply orb_true_iff. right. apply (IH (S k) c pr); [assumption | | assumption]. now rewrite Nat.add_succ_comm.
Qed.

Lemma var_used : forall p q i, In (RLoc q i) (body_refs p) -> level P q <> level P p -> var_leaf P q i = false.
Proof.
  intros p q i H N. unfold body_refs in H. destruct (nth_error (procs P) p) as [pr|] eqn:E; [|contradiction].
  unfold var_leaf. apply negb_false_iff. now apply (used_deeper_in q i (procs P) 0 p pr).
Qed.

(** ** Relations between C variables, fields of scope structs and what names stand for *)
Definition cvar_rel (d : decl) (x : cvar) (o : obj) : Prop :=
  match d_kind d, x, o with
  | KScal, CCell b, OScal a => d_ref d = false /\ a = (b, 0)
  | KScal, CPtr a, OScal a' => d_ref d = true /\ a = a'
  | KFix dims, CFix b, OArr b' lens => b = b' /\ lens = dims
  | KOpen n, COpen b ls, OArr b' lens => b = b' /\ ls = lens /\ length lens = n
  | KRec t, CCell b, ORec a t1 => d_ref d = false /\ a = (b, 0) /\ t1 = t
  | KRec t, CRecP a t1, ORec a' t2 => d_ref d = true /\ a = a' /\ t1 = t2
  | _, _, _ => False
  end.

Definition fld_rel (d : decl) (f : fld) (o : obj) : Prop :=
  match d_kind d, f, o with
  | KScal, FAdr a, OScal a' => a = a'
  | KFix dims, FFix b, OArr b' lens => b = b' /\ lens = dims
  | KOpen n, FOpen b ls, OArr b' lens => b = b' /\ (n <= 1 -> ls = map Some lens)
  | KRec t, FAdr a, ORec a' t1 => a = a' /\ t1 = t
  | KRec _, FRec a t1, ORec a' t2 => a = a' /\ t1 = t2
  | _, _, _ => False
  end.

Fixpoint frel (ds : list decl) (fr : list cvar) (os : list obj) : Prop :=
  match ds, fr, os with
  | [], [], [] => True
  | d :: ds', x :: fr', o :: os' => cvar_rel d x o /\ frel ds' fr' os'
  | _, _, _ => False
  end.

Lemma frel_app : forall ds fr os ds' fr' os', frel ds fr os -> frel ds' fr' os' -> frel (ds ++ ds') (fr ++ fr') (os ++ os').
Proof.
  induction ds as [|d ds IH]; intros [|x fr] [|o os] ds' fr' os' H1 H2; cbn in *; try contradiction; [assumption|].
  destruct H1. split; [assumption|]. now apply IH.
Qed.

Lemma frel_nth : forall ds fr os i d o, frel ds fr os -> nth_error ds i = Some d -> nth_error os i = Some o ->
  exists x, nth_error fr i = Some x /\ cvar_rel d x o.
Proof.
  induction ds as [|d ds IH]; intros [|x fr] [|o os] i d0 o0 H1 H2 H3; cbn in H1; try contradiction.
  - destruct i; discriminate.
  - destruct H1. destruct i as [|i]; cbn in *; [exists x; split; congruence | eauto].
Qed.

Lemma frel_length : forall ds fr os, frel ds fr os -> length fr = length ds /\ length os = length ds.
Proof.
  induction ds as [|d ds IH]; intros [|x fr] [|o os] H; cbn in H; try contradiction; [auto|].
  destruct H as (_ & H). apply IH in H. cbn. lia.
Qed.

Definition scope_rel (ptr : list (option nat)) (str : list scope) (f : nat * list obj) : Prop :=
  scope_leaf P (fst f) = false ->
  exists pr k s, nth_error (procs P) (fst f) = Some pr /\ nth_error ptr (fst f) = Some (Some k) /\
    nth_error str k = Some s /\
    forall i d o, nth_error (vars pr) i = Some d -> nth_error (snd f) i = Some o -> var_leaf P (fst f) i = false ->
      exists x, nth_error (s_fields s) i = Some (Some x) /\ fld_rel d x o.

Definition env_rel ptr str (rho : env) : Prop := Forall (scope_rel ptr str) rho.

Lemma inside_rel : forall ptr str q rho rho', env_rel ptr str rho -> inside rho q = Some rho' -> env_rel ptr str rho'.
Proof.
  intros ptr str q. induction rho as [|[p os] rho IH]; intros rho' H E; cbn in E; [discriminate|].
  destruct (p =? q); [inversion E; subst; assumption|]. inversion H; subst. eauto.
Qed.

Variable glob : list obj.
Variable cglob : list cvar.
Hypothesis GREL : frel (globals P) cglob glob.

Definition cobj_of (o : obj) : cobj :=
  match o with OScal a => XAdr a | OArr b lens => XArr b (map Some lens) | ORec a t => XRec a t end.

Lemma direct_rel : forall d x o, cvar_rel d x o -> direct d x = Ok (cobj_of o).
Proof.
  intros d x o H. unfold cvar_rel in H. unfold direct.
  destruct (d_kind d), x, o; try contradiction; cbn [cobj_of].
  - destruct H as (_ & ->). reflexivity.
  - destruct H as (_ & ->). reflexivity.
  - destruct H as (-> & ->). reflexivity.
  - destruct H as (-> & -> & _). reflexivity.
  - destruct H as (_ & -> & ->). reflexivity.
  - destruct H as (_ & -> & ->). reflexivity.
Qed.

(** The running procedure [p] with variables [fr], seen environment [rho]. *)
Record ctx (sh : list nat) (p : nat) (os : list obj) (rho : env) (fr : list cvar) (ptr : list (option nat))
    (str : list scope) : Prop := {
  x_inv : inv P glob sh ((p, os) :: rho);
  x_fr : exists pr, nth_error (procs P) p = Some pr /\ frel (vars pr) fr os;
  x_env : env_rel ptr str ((p, os) :: rho);
  x_len : length ptr = length (procs P) }.

Lemma operand_ok : forall sh p os rho fr m ptr str r f, ctx sh p os rho fr ptr str ->
  has P p r f = true -> simple_use P p r = true -> In r (body_refs p) ->
  exists d o, decl_of P r = Some d /\ f d = true /\ obj_ok sh d o /\
    lookup glob ((p, os) :: rho) r = Ok o /\ operand P cglob p fr (mkC m ptr str) r = Ok (cobj_of o).
Proof.
  intros sh p os rho fr m ptr str r f X V S U. destruct X as [XI XF XE XL].
  destruct (lookup_ok _ _ _ _ _ _ _ _ XI V) as (d & o & D & F & L & O). exists d, o. repeat (split; [assumption|]).
  unfold operand. rewrite D. destruct r as [i|q i]; cbn [lookup decl_of] in *.
  - destruct (nth_error glob i) as [o'|] eqn:E; [|discriminate]. inversion L; subst o'.
    destruct (frel_nth _ _ _ _ _ _ GREL D E) as (x & E1 & E2). rewrite E1. now apply direct_rel.
  - unfold has in V. apply andb_true_iff in V. destruct V as (V & _). cbn [visible] in V.
    destruct (level P q =? level P p) eqn:LV.
    + apply Nat.eqb_eq in LV. pose proof (sees_level _ _ V LV) as E. subst q.
      destruct XF as (pr & Q & XF). rewrite Q in D. cbn [frame_of] in L. rewrite Nat.eqb_refl in L.
      destruct (nth_error os i) as [o'|] eqn:E; [|discriminate]. inversion L; subst o'.
      destruct (frel_nth _ _ _ _ _ _ XF D E) as (x & E1 & E2). rewrite E1. now apply direct_rel.
    + apply Nat.eqb_neq in LV. assert (NE : q <> p) by congruence.
      pose proof (var_used _ _ _ U LV) as VL. destruct XI as (XI & _).
      unfold sees in V. destruct (anc_child _ _ _ V (not_eq_sym NE)) as (c & prc & C1 & C2).
      pose proof (not_leaf _ _ _ C1 C2) as NL.
      destruct (inside_ok _ _ _ _ _ _ _ XI V) as (os' & rho' & E1 & E2).
      pose proof (inside_rel _ _ _ _ _ XE E1) as R. inversion R as [|h t R1 R2]; subst.
      destruct (R1 NL) as (pr & k & s & Q & K1 & K2 & K3). cbn [fst snd] in *.
      cbn [c_ptr c_str]. rewrite K1, K2. rewrite Q in D. rewrite (frame_inside _ _ _ _ E1) in L.
      destruct (nth_error os' i) as [o'|] eqn:E; [|discriminate]. inversion L; subst o'.
      destruct (K3 _ _ _ D E VL) as (x & E3 & E4). rewrite E3.
      cbn [simple_use decl_of] in S. rewrite Q, D in S. apply orb_true_iff in S.
      destruct S as [S|S]; [apply Nat.eqb_eq in S; congruence|].
      unfold fld_rel in E4. unfold through. destruct (d_kind d) as [|dims|n|t], x as [a|b|b ls|a t1], o as [a'|b' lens|a' t2];
        try contradiction; cbn [cobj_of].
      * now subst.
      * destruct E4 as (-> & ->). apply negb_true_iff in S. now rewrite S.
      * destruct E4 as (-> & E4). apply Nat.leb_le in S. now rewrite (E4 S).
      * destruct E4 as (-> & ->). reflexivity.
      * destruct E4 as (-> & ->). reflexivity.
Qed.

Lemma all_set_some : forall l, all_set (map Some l) = Ok l.
Proof. induction l as [|n l IH]; cbn; [reflexivity|]. now rewrite IH. Qed.

(** ** Entry of a procedure *)
Lemma copy_all : forall m b n, nth_error (shape m) b = Some n -> copy m b n = blk m b.
Proof.
  intros m b n H. apply shape_at in H. destruct H as (l & E1 & E2). unfold copy, blk. rewrite E1. cbn [bind].
  subst n. rewrite Nat.leb_refl, firstn_all. reflexivity.
Qed.

Lemma c_param_ok : forall m d x m' o, pass_ok P (shape m) d x -> bind_param m d x = Ok (m', o) ->
  exists c, c_param m d x = Ok (m', c) /\ cvar_rel d c o.
Proof.
  intros m d x m' o H B. unfold pass_ok in H. unfold bind_param in B. unfold c_param, cvar_rel.
  destruct (d_ref d) eqn:R, (d_kind d) as [|dims|n|t] eqn:K, x as [v|a|b lens|c|a t1]; try contradiction.
  - inversion B; subst. eexists. split; [reflexivity|]. cbn. auto.
  - destruct H as (-> & H). inversion B; subst. eexists. split; [reflexivity|]. cbn. auto.
  - destruct H as (H0 & H). inversion B; subst. eexists. split; [reflexivity|]. cbn. auto.
  - inversion B; subst. eexists. split; [reflexivity|]. cbn. auto.
  - inversion B; subst. eexists. split; [reflexivity|]. cbn. auto.
  - destruct H as (-> & H). rewrite (copy_all _ _ _ H). destruct (blk m b) as [l|c| |]; cbn [bind] in *; try discriminate.
    inversion B; subst. eexists. split; [reflexivity|]. cbn. auto.
  - destruct H as (H0 & H). rewrite (copy_all _ _ _ H). destruct (blk m b) as [l|c| |]; cbn [bind] in *; try discriminate.
    inversion B; subst. eexists. split; [reflexivity|]. cbn. auto.
  - inversion B; subst. eexists. split; [reflexivity|]. cbn. auto.
Qed.

Lemma c_params_ok : forall ds xs m m' os, Forall2 (pass_ok P (shape m)) ds xs -> mem_ok P m ->
  bind_params m ds xs = Ok (m', os) -> exists ps, c_params m ds xs = Ok (m', ps) /\ frel ds ps os.
Proof.
  induction ds as [|d ds IH]; intros xs m m' os H M B; inversion H; subst; cbn [bind_params c_params] in *.
  - inversion B; subst. exists []. split; [reflexivity | exact I].
  - destruct (bind_param_ok _ m d y H2 M) as (e1 & o & E1 & M1 & O1). rewrite E1 in B. cbn [bind] in B.
    destruct (c_param_ok _ _ _ _ _ H2 E1) as (c & C1 & C2). rewrite C1. cbn [bind].
    assert (H5 : Forall2 (pass_ok P (shape (m ++ e1))) ds l').
    { rewrite shape_app. clear - H4. induction H4; constructor; [now apply pass_ok_app | assumption]. }
    destruct (bind_params (m ++ e1) ds l') as [[m2 os2]|c0| |] eqn:E2; cbn [bind] in B; try discriminate.
    inversion B; subst. destruct (IH _ _ _ _ H5 M1 E2) as (ps & D1 & D2). rewrite D1. cbn [bind].
    exists (c :: ps). split; [reflexivity|]. split; assumption.
Qed.

Lemma c_local_ok : forall m d m' o, ok_local d = true -> new_local m d = (m', o) ->
  exists c, c_local m d = (m', c) /\ cvar_rel d c o.
Proof.
  intros m d m' o K H. unfold ok_local in K. apply andb_true_iff in K. destruct K as (K & K').
  apply negb_true_iff in K. unfold new_local in H. unfold c_local, cvar_rel.
  destruct (d_kind d); try discriminate; inversion H; subst; eexists; (split; [reflexivity|]); cbn; auto.
Qed.

Lemma c_locals_ok : forall ds m m' os, forallb ok_local ds = true -> new_locals m ds = (m', os) ->
  exists cs, c_locals m ds = (m', cs) /\ frel ds cs os.
Proof.
  induction ds as [|d ds IH]; intros m m' os K H; cbn [new_locals c_locals forallb] in *.
  - inversion H; subst. exists []. split; [reflexivity | exact I].
  - apply andb_true_iff in K. destruct K as (K1 & K2). destruct (new_local m d) as [m1 o] eqn:E1.
    destruct (new_locals m1 ds) as [m2 os2] eqn:E2. inversion H; subst.
    destruct (c_local_ok _ _ _ _ K1 E1) as (c & C1 & C2). rewrite C1.
    destruct (IH _ _ _ K2 E2) as (cs & D1 & D2). rewrite D1. exists (c :: cs). split; [reflexivity|]. split; assumption.
Qed.

Lemma fields_nth : forall f p ds xs k i d x, nth_error ds i = Some d -> nth_error xs i = Some x ->
  nth_error (fields P f p k ds xs) i = Some (if var_leaf P p (k + i) then None else f d x).
Proof.
  intros f p. induction ds as [|d ds IH]; intros [|x xs] k [|i] d0 x0 H1 H2; cbn [nth_error fields] in *; try discriminate.
  - rewrite Nat.add_0_r. inversion H1; inversion H2; subst. reflexivity.
  - rewrite (IH _ (S k) _ _ _ H1 H2). now rewrite Nat.add_succ_comm.
Qed.

Lemma fields_length : forall f p ds xs k, length xs = length ds -> length (fields P f p k ds xs) = length ds.
Proof. intros f p. induction ds as [|d ds IH]; intros [|x xs] k H; cbn in *; try lia. rewrite IH; lia. Qed.

Lemma len_loop_one : forall lens n, length lens = n -> n <= 1 -> len_loop n 0 (repeat None n) lens = map Some lens.
Proof. intros [|l [|l' lens]] n H L; cbn [length] in *; subst n; try lia; reflexivity. Qed.

Lemma param_field_ok : forall d x o, cvar_rel d x o -> exists f, param_field d x = Some f /\ fld_rel d f o.
Proof.
  intros d x o H. unfold cvar_rel in H. unfold param_field, fld_rel.
  destruct (d_kind d), x, o; try contradiction; eexists; (split; [reflexivity|]); cbn.
  - destruct H; congruence.
  - destruct H; congruence.
  - assumption.
  - destruct H as (-> & -> & H). split; [reflexivity|]. intros L. now apply len_loop_one.
  - destruct H as (_ & -> & ->). auto.
  - destruct H as (_ & -> & ->). auto.
Qed.

Lemma local_field_ok : forall d x o, ok_local d = true -> cvar_rel d x o -> exists f, local_field d x = Some f /\ fld_rel d f o.
Proof.
  intros d x o K H. unfold ok_local in K. apply andb_true_iff in K. destruct K as (K & K').
  apply negb_true_iff in K. unfold cvar_rel in H. unfold local_field, fld_rel. rewrite K in H.
  destruct (d_kind d), x, o; try contradiction; try discriminate; try (destruct H; discriminate);
    eexists; (split; [reflexivity|]); cbn.
  - destruct H; congruence.
  - assumption.
  - destruct H as (_ & -> & ->). auto.
Qed.

Lemma scope_fields_ok : forall p pr ps ls os us i d o, frel (p_params pr) ps os -> frel (p_locals pr) ls us ->
  forallb ok_local (p_locals pr) = true ->
  nth_error (vars pr) i = Some d -> nth_error (os ++ us) i = Some o -> var_leaf P p i = false ->
  exists x, nth_error (scope_fields P p pr ps ls) i = Some (Some x) /\ fld_rel d x o.
Proof.
  intros p pr ps ls os us i d o R1 R2 K H1 H2 VL. unfold vars in H1. unfold scope_fields.
  destruct (frel_length _ _ _ R1) as (L1 & L2). destruct (Nat.lt_ge_cases i (length (p_params pr))) as [L|L].
  - rewrite nth_error_app1 in H1 by lia. rewrite nth_error_app1 in H2 by lia.
    destruct (frel_nth _ _ _ _ _ _ R1 H1 H2) as (x & E1 & E2). destruct (param_field_ok _ _ _ E2) as (f & F1 & F2).
    exists f. split; [|assumption]. rewrite nth_error_app1 by (rewrite fields_length; lia).
    rewrite (fields_nth _ _ _ _ _ _ _ _ H1 E1). cbn [Nat.add]. now rewrite VL, F1.
  - rewrite nth_error_app2 in H1 by lia. rewrite nth_error_app2 in H2 by lia. rewrite L2 in H2.
    destruct (frel_nth _ _ _ _ _ _ R2 H1 H2) as (x & E1 & E2).
    assert (KD : ok_local d = true).
    { rewrite forallb_forall in K. apply K. eapply nth_error_In; eassumption. }
    destruct (local_field_ok _ _ _ KD E2) as (f & F1 & F2).
    exists f. split; [|assumption]. rewrite nth_error_app2 by (rewrite fields_length; lia).
    rewrite fields_length by lia. rewrite (fields_nth _ _ _ _ _ _ _ _ H1 E1).
    replace (length (p_params pr) + (i - length (p_params pr))) with i by lia. now rewrite VL, F1.
Qed.

(** ** Restrictions carried through the bodies *)
Definition su (p : nat) : ref -> bool := simple_use P p.
Definition sg (p : nat) : ref -> bool := own_var p.

Definition st_expr (p : nat) (e : expr) : Prop :=
  ok_expr P p e = true /\ uses_expr (su p) (sg p) e = true /\ incl (refs_expr e) (body_refs p).
Definition st_desig (p : nat) (d : desig) : Prop :=
  ok_desig P p d = true /\ uses_desig (su p) (sg p) d = true /\ incl (refs_desig d) (body_refs p).
Definition st_arg (p : nat) (d : decl) (a : arg) : Prop :=
  ok_arg P p d a = true /\ uses_arg (su p) (sg p) a = true /\ incl (refs_arg a) (body_refs p).
Definition st_args (p : nat) (ds : list decl) (l : list arg) : Prop :=
  ok_args P p ds l = true /\ forallb (uses_arg (su p) (sg p)) l = true /\ incl (flat_map refs_arg l) (body_refs p).
Definition st_exprs (p : nat) (l : list expr) : Prop :=
  forallb (ok_expr P p) l = true /\ forallb (uses_expr (su p) (sg p)) l = true /\ incl (flat_map refs_expr l) (body_refs p).
Definition st_stat (p : nat) (s : stat) : Prop :=
  ok_stat P p s = true /\ uses_stat (su p) (sg p) s = true /\ incl (refs_stat s) (body_refs p).
Definition st_stats (p : nat) (l : list stat) : Prop :=
  forallb (ok_stat P p) l = true /\ forallb (uses_stat (su p) (sg p)) l = true /\ incl (flat_map refs_stat l) (body_refs p).

Lemma incl_app_l : forall A (a b c : list A), incl (a ++ b) c -> incl a c.
Proof. intros A a b c H x Hx. apply H, in_or_app. auto. Qed.
Lemma incl_app_r : forall A (a b c : list A), incl (a ++ b) c -> incl b c.
Proof. intros A a b c H x Hx. apply H, in_or_app. auto. Qed.
Lemma incl_cons_h : forall A (x : A) b c, incl (x :: b) c -> In x c.
Proof. intros A x b c H. apply H. now left. Qed.
Lemma incl_cons_t : forall A (x : A) b c, incl (x :: b) c -> incl b c.
Proof. intros A x b c H y Hy. apply H. now right. Qed.

Lemma simple_nth : forall l k p pr, simple_procs P k l = true -> nth_error l p = Some pr ->
  forallb (uses_stat (su (k + p)) (sg (k + p))) (p_body pr) = true.
Proof.
  induction l as [|x l IH]; intros k [|p] pr H E; cbn in *; try discriminate; apply andb_true_iff in H; destruct H as (H1 & H2).
  - rewrite Nat.add_0_r. inversion E; subst. exact H1.
  - rewrite <- Nat.add_succ_comm. eauto.
Qed.

Lemma body_static : forall p pr, nth_error (procs P) p = Some pr -> st_stats p (p_body pr).
Proof.
  intros p pr E. pose proof (proc_ok P ACC _ _ E) as K. unfold ok_proc in K. apply andb_true_iff in K. destruct K as (_ & K).
  split; [assumption|]. split; [exact (simple_nth _ 0 _ _ SIM E)|]. unfold body_refs. rewrite E. apply incl_refl.
Qed.

Lemma ok_call : forall p q l, ok_expr P p (ECall q l) = callable P p q &&
  match nth_error (procs P) q with Some pr => ok_args P p (p_params pr) l | None => false end.
Proof. intros. destruct (nth_error (procs P) q) as [pr|] eqn:E; [rewrite <- ok_args_go|]; cbn; rewrite E; reflexivity. Qed.

Lemma ok_callv : forall p r sig l, ok_expr P p (ECallV r sig l) =
  has P p r (fun d => kind_eqb (d_kind d) KScal) && ok_args P p sig l.
Proof. intros. rewrite <- ok_args_go. reflexivity. Qed.

Lemma ok_elem : forall p r l, ok_desig P p (DElem r l) =
  has P p r (fun d => match dims_of (d_kind d) with Some n => (n =? length l)%nat | None => false end)
  && forallb (ok_expr P p) l.
Proof. intros. rewrite <- ok_exprs_go. reflexivity. Qed.

(** ** Simulation *)
Definition lift {A} (ptr : list (option nat)) (str : list scope) (r : res (mem * A)) : res (cst * A) :=
  bind r (fun x => Ok (mkC (fst x) ptr str, snd x)).

Definition uptr (ptr : list (option nat)) (str : list scope) (p own : nat) : list (option nat) :=
  if scope_leaf P p then ptr
  else match nth_error str own with Some s => upd ptr p (s_lnk s) | None => ptr end.

Lemma unlink_eq : forall m ptr str p own, unlink P (mkC m ptr str) p own = mkC m (uptr ptr str p own) str.
Proof.
  intros. unfold unlink, uptr. destruct (scope_leaf P p); [reflexivity|]. cbn [c_str c_mem c_ptr].
  destruct (nth_error str own); reflexivity.
Qed.

Definition lift2 (p own : nat) ptr str (r : res (mem * option (option val))) : res (cst * option (option val)) :=
  bind r (fun x => match snd x with
                   | None => Ok (mkC (fst x) ptr str, None)
                   | Some v => Ok (mkC (fst x) (uptr ptr str p own) str, Some v)
                   end).

Lemma ctx_kept : forall m m' p os rho fr ptr str, ctx (shape m) p os rho fr ptr str -> kept P m m' ->
  ctx (shape m') p os rho fr ptr str.
Proof. intros m m' p os rho fr ptr str X (E & _). now rewrite E. Qed.

Definition sim_at (n : nat) : Prop :=
  (forall p os rho fr own m ptr str e, ctx (shape m) p os rho fr ptr str -> mem_ok P m -> st_expr p e ->
     c_eval P cglob n p fr own (mkC m ptr str) e = lift ptr str (eval P glob n ((p, os) :: rho) m e)) /\
  (forall p os rho fr own m ptr str d, ctx (shape m) p os rho fr ptr str -> mem_ok P m -> st_desig p d ->
     c_locate P cglob n p fr own (mkC m ptr str) d = lift ptr str (locate P glob n ((p, os) :: rho) m d)) /\
  (forall p os rho fr own m ptr str l, ctx (shape m) p os rho fr ptr str -> mem_ok P m -> st_exprs p l ->
     c_evals P cglob n p fr own (mkC m ptr str) l = lift ptr str (evals P glob n ((p, os) :: rho) m l)) /\
  (forall p os rho fr own m ptr str ds l, ctx (shape m) p os rho fr ptr str -> mem_ok P m -> st_args p ds l ->
     c_args P cglob n p fr own (mkC m ptr str) ds l = lift ptr str (evargs P glob n ((p, os) :: rho) m ds l)) /\
  (forall p os rho fr own m ptr str d a, ctx (shape m) p os rho fr ptr str -> mem_ok P m -> st_arg p d a ->
     c_arg P cglob n p fr own (mkC m ptr str) d a = lift ptr str (evarg P glob n ((p, os) :: rho) m d a)) /\
  (forall p os rho fr own m ptr str r sig l, ctx (shape m) p os rho fr ptr str -> mem_ok P m ->
     has P p r (fun d => kind_eqb (d_kind d) KScal) = true -> su p r = true -> In r (body_refs p) -> st_args p sig l ->
     c_call_value P cglob n p fr own (mkC m ptr str) r sig l
     = lift ptr str (call_value P glob n ((p, os) :: rho) m r sig l)) /\
  (forall rho m q pr rho0 xs ptr str, inv P glob (shape m) rho0 -> mem_ok P m -> nth_error (procs P) q = Some pr ->
     decl_env rho (p_parent pr) = Some rho0 ->
     match p_parent pr with None => rho0 = [] | Some r => exists os' rho', rho0 = (r, os') :: rho' end ->
     Forall2 (pass_ok P (shape m)) (p_params pr) xs ->
     env_rel ptr str rho0 -> length ptr = length (procs P) ->
     c_invoke P cglob n (mkC m ptr str) q xs = lift ptr str (invoke P glob n rho m q xs)) /\
  (forall p os rho fr own m ptr str s, ctx (shape m) p os rho fr ptr str -> mem_ok P m -> st_stat p s ->
     c_exec P cglob n p fr own (mkC m ptr str) s = lift2 p own ptr str (exec P glob n ((p, os) :: rho) m s)) /\
  (forall p os rho fr own m ptr str l, ctx (shape m) p os rho fr ptr str -> mem_ok P m -> st_stats p l ->
     c_execs P cglob n p fr own (mkC m ptr str) l = lift2 p own ptr str (execs P glob n ((p, os) :: rho) m l)).

Lemma callable_rel : forall sh p os rho fr ptr str q pr, ctx sh p os rho fr ptr str -> callable P p q = true ->
  nth_error (procs P) q = Some pr ->
  exists rho0, decl_env ((p, os) :: rho) (p_parent pr) = Some rho0 /\ inv P glob sh rho0 /\ env_rel ptr str rho0 /\
    match p_parent pr with None => rho0 = [] | Some r => exists os' rho', rho0 = (r, os') :: rho' end.
Proof.
  intros sh p os rho fr ptr str q pr X C Q. destruct (callable_env _ _ _ _ _ _ _ _ (x_inv _ _ _ _ _ _ _ X) C Q) as (rho0 & D1 & D2 & D3).
  exists rho0. repeat (split; [assumption|]). split; [|assumption].
  destruct (p_parent pr) as [r|]; cbn [decl_env] in D1.
  - eapply inside_rel; [apply (x_env _ _ _ _ _ _ _ X) | exact D1].
  - subst rho0. constructor.
Qed.

Lemma execs_implicit : forall n rho l m m', execs P glob n rho m l = Ok (m', None) -> implicit_return l = true.
Proof.
  intros n rho l. revert n. induction l as [|s l IH]; intros n m m' H; [reflexivity|].
  destruct n as [|n]; [discriminate|]. rewrite execs_S in H.
  destruct (exec P glob n rho m s) as [[m1 o]|c| |] eqn:E; cbn [bind] in H; try discriminate.
  destruct o as [v|]; [discriminate|]. apply IH in H. unfold implicit_return in *. cbn [existsb].
  destruct s; cbn [orb]; try exact H.
  destruct n as [|n]; [discriminate|]. rewrite exec_S in E. destruct o as [e|]; [|discriminate].
  destruct (eval P glob n rho m e) as [[m2 v]|c| |]; discriminate.
Qed.

Lemma inside_bound : forall sh rho q os, env_ok P sh ((q, os) :: rho) -> forall f, In f rho -> fst f < q.
Proof.
  intros sh rho. induction rho as [|[r os'] rho IH]; intros q os H f F; [contradiction|].
  inversion H as [| |p' pr' os1 q' os2 rho2 Q' O' N' E']; subst.
  assert (L : r < q). { apply parent_lt. unfold parent. now rewrite Q'. }
  destruct F as [<-|F]; [exact L|]. specialize (IH _ _ E' _ F). lia.
Qed.

(** Entering procedure [q] links its struct and keeps those of the enclosing procedures. *)
Lemma enter_rel : forall sh m q pr os us ps ls rho0 ptr str, nth_error (procs P) q = Some pr ->
  env_ok P sh ((q, os ++ us) :: rho0) -> env_rel ptr str rho0 -> length ptr = length (procs P) ->
  frel (p_params pr) ps os -> frel (p_locals pr) ls us -> scope_leaf P q = false ->
  let st := link_scope (mkC m ptr str) q (scope_fields P q pr ps ls) in
  c_mem st = m /\ length (c_ptr st) = length (procs P) /\
  env_rel (c_ptr st) (c_str st) ((q, os ++ us) :: rho0) /\
  uptr (c_ptr st) (c_str st) q (length str) = ptr /\ firstn (length str) (c_str st) = str.
Proof.
  intros sh m q pr os us ps ls rho0 ptr str Q E R L R1 R2 SL. cbv zeta. unfold link_scope. cbn [c_mem c_ptr c_str].
  pose proof (proc_ok P ACC _ _ Q) as K. unfold ok_proc in K. apply andb_true_iff in K. destruct K as (K & _).
  apply andb_true_iff in K. destruct K as (_ & K).
  assert (QL : q < length ptr) by (rewrite L; apply nth_error_Some; congruence).
  split; [reflexivity|]. split; [now rewrite upd_length|]. split; [|split].
  - constructor.
    + intros _. cbn [fst snd]. exists pr, (length str). eexists. split; [assumption|]. split; [now apply upd_same|].
      split; [rewrite nth_error_app2, Nat.sub_diag by lia; reflexivity|]. cbn [s_fields].
      intros i d o H1 H2 H3. eapply scope_fields_ok; eassumption.
    + apply Forall_forall. intros f F. unfold env_rel in R. rewrite Forall_forall in R.
      pose proof (inside_bound _ _ _ _ E _ F) as LT. intros NL. destruct (R _ F NL) as (pr' & k & s & A1 & A2 & A3 & A4).
      exists pr', k, s. split; [assumption|]. split; [rewrite upd_other by lia; assumption|].
      split; [|assumption]. rewrite nth_error_app1; [assumption|]. apply nth_error_Some. congruence.
  - unfold uptr. rewrite SL. rewrite nth_error_app2, Nat.sub_diag by lia. cbn [nth_error s_lnk]. rewrite upd_upd.
    destruct (nth_error ptr q) as [o|] eqn:N; [now apply upd_self | apply nth_error_None in N; lia].
  - rewrite firstn_app, firstn_all, Nat.sub_diag. cbn. apply app_nil_r.
Qed.

(** Use of an induction hypothesis for one step, with what [safe] says about its result. *)
Ltac step IH G :=
  rewrite IH; [ | first [eassumption | eapply ctx_kept; eassumption] | try assumption; try (apply G) | try assumption];
  cbn [lift bind].

Lemma sim : forall n, sim_at n.
Proof.
  induction n as [|n IH]; [repeat split; reflexivity|].
  destruct IH as (IE & IL & IEs & IAs & IA & IV & II & IX & IXs).
  destruct (safe P ACC glob n) as (SE & SL & SEs & SAs & SA & SV & SI & SX & SXs).
  unfold sim_at. repeat match goal with |- _ /\ _ => split end.
  - (* eval *)
    intros p os rho fr own m ptr str e X M (K & U & R). pose proof (x_inv _ _ _ _ _ _ _ X) as XI.
    rewrite eval_S, c_eval_S. destruct e as [z|q|d|r k|r|f a b|q l|r sig l];
      try (rewrite ok_call in K); try (rewrite ok_callv in K); cbn [ok_expr] in K; cbn [uses_expr] in U; cbn [refs_expr] in R.
    + reflexivity.
    + reflexivity.
    + rewrite (IL p os rho) by (assumption || (split; [|split]; assumption)).
      destruct (locate P glob n ((p, os) :: rho) m d) as [[m1 a]|c| |]; cbn [lift bind fst snd c_mem]; try reflexivity.
      destruct (rd m1 a); reflexivity.
    + destruct (operand_ok _ _ _ _ _ m _ _ _ _ X K U (incl_cons_h _ _ _ _ R)) as (d & o & D & F & O & E1 & E2).
      rewrite E1, E2. cbn [bind]. destruct o as [a|b lens|a t]; cbn [cobj_of]; try reflexivity.
      rewrite nth_error_map. destruct (nth_error lens k); reflexivity.
    + destruct (operand_ok _ _ _ _ _ m _ _ _ _ X K U (incl_cons_h _ _ _ _ R)) as (d & o & D & F & O & E1 & E2).
      rewrite E1, E2. cbn [bind]. destruct o; reflexivity.
    + apply andb_true_iff in K. destruct K as (K1 & K2). apply andb_true_iff in U. destruct U as (U1 & U2).
      rewrite (IE p os rho) by (assumption || (split; [|split]; [assumption.. | eapply incl_app_l; eassumption])).
      pose proof (SE p os rho m a XI M K1) as G.
      destruct (eval P glob n ((p, os) :: rho) m a) as [[m1 x]|c| |]; cbn [lift bind fst snd good] in *; try reflexivity.
      destruct G as (G & _).
      rewrite (IE p os rho) by (first [eapply ctx_kept; eassumption | apply G |
        split; [|split]; [assumption.. | eapply incl_app_r; eassumption]]).
      destruct (eval P glob n ((p, os) :: rho) m1 b) as [[m2 y]|c| |]; cbn [lift bind fst snd]; try reflexivity.
      destruct x, y; reflexivity.
    + apply andb_true_iff in K. destruct K as (K1 & K2). destruct (nth_error (procs P) q) as [pr|] eqn:Q; [|reflexivity].
      rewrite (IAs p os rho) by (assumption || (split; [|split]; assumption)).
      pose proof (SAs p os rho m _ _ XI M K2) as G.
      destruct (evargs P glob n ((p, os) :: rho) m (p_params pr) l) as [[m1 xs]|c| |]; cbn [lift bind fst snd good] in *; try reflexivity.
      destruct G as (G & PX). destruct (callable_rel _ _ _ _ _ _ _ _ _ X K1 Q) as (rho0 & D1 & D2 & D3 & D4).
      rewrite (II ((p, os) :: rho) m1 q pr rho0 xs ptr str); try assumption;
        [ | eapply inv_kept; eassumption | apply G | destruct G as (G & _); now rewrite G | apply (x_len _ _ _ _ _ _ _ X)].
      destruct (invoke P glob n ((p, os) :: rho) m1 q xs) as [[m2 o]|c| |]; cbn [lift bind fst snd]; try reflexivity.
      destruct o; reflexivity.
    + apply andb_true_iff in K. destruct K as (K1 & K2).
      apply andb_true_iff in U. destruct U as (U1 & U2).
      rewrite (IV p os rho) by (first [assumption | eapply incl_cons_h; eassumption |
        split; [|split]; [assumption.. | eapply incl_cons_t; eassumption]]).
      destruct (call_value P glob n ((p, os) :: rho) m r sig l) as [[m2 o]|c| |]; cbn [lift bind fst snd]; try reflexivity.
      destruct o; reflexivity.
  - (* locate *)
    intros p os rho fr own m ptr str d X M (K & U & R). pose proof (x_inv _ _ _ _ _ _ _ X) as XI.
    rewrite locate_S, c_locate_S. destruct d as [r|r l|r t];
      try (rewrite ok_elem in K); cbn [ok_desig] in K; cbn [uses_desig] in U; cbn [refs_desig] in R.
    + destruct (operand_ok _ _ _ _ _ m _ _ _ _ X K U (incl_cons_h _ _ _ _ R)) as (d & o & D & F & O & E1 & E2).
      rewrite E1, E2. cbn [bind]. destruct o; reflexivity.
    + apply andb_true_iff in K. destruct K as (K1 & K2).
      apply andb_true_iff in U. destruct U as (U1 & U2).
      destruct (operand_ok _ _ _ _ _ m _ _ _ _ X K1 U1 (incl_cons_h _ _ _ _ R)) as (d & o & D & F & O & E1 & E2).
      rewrite E1, E2. cbn [bind]. destruct o as [a|b lens|a t]; cbn [cobj_of]; try reflexivity.
      rewrite (IEs p os rho) by (first [assumption | split; [|split]; [assumption.. | eapply incl_cons_t; eassumption]]).
      destruct (evals P glob n ((p, os) :: rho) m l) as [[m1 ix]|c| |]; cbn [lift bind fst snd]; try reflexivity.
      rewrite all_set_some. cbn [bind]. destruct (offset 0 lens ix); reflexivity.
    + apply andb_true_iff in U. destruct U as (U1 & U2).
      destruct (operand_ok _ _ _ _ _ m _ _ _ _ X K U1 (incl_cons_h _ _ _ _ R)) as (d & o & D & F & O & E1 & E2).
      assert (OL : own_level P p r = true).
      { unfold sg, own_var in U2. destruct r as [i|q i]; [discriminate|]. apply Nat.eqb_eq in U2. subst q. cbn. apply Nat.eqb_refl. }
      rewrite OL, E1, E2. cbn [bind]. destruct o as [a|b lens|a t1]; cbn [cobj_of]; try reflexivity.
      destruct (t1 =? t); reflexivity.
  - (* evals *)
    intros p os rho fr own m ptr str l X M (K & U & R). pose proof (x_inv _ _ _ _ _ _ _ X) as XI.
    rewrite evals_S, c_evals_S. destruct l as [|e r]; cbn [forallb flat_map] in K, U, R; [reflexivity|].
    apply andb_true_iff in K. destruct K as (K1 & K2). apply andb_true_iff in U. destruct U as (U1 & U2).
    rewrite (IE p os rho) by (assumption || (split; [|split]; [assumption.. | eapply incl_app_l; eassumption])).
    pose proof (SE p os rho m e XI M K1) as G.
    destruct (eval P glob n ((p, os) :: rho) m e) as [[m1 x]|c| |]; cbn [lift bind fst snd good] in *; try reflexivity.
    destruct G as (G & _).
    rewrite (IEs p os rho) by (first [eapply ctx_kept; eassumption | apply G |
      split; [|split]; [assumption.. | eapply incl_app_r; eassumption]]).
    destruct (evals P glob n ((p, os) :: rho) m1 r) as [[m2 y]|c| |]; cbn [lift bind fst snd]; try reflexivity.
    destruct x; reflexivity.
  - (* evargs *)
    intros p os rho fr own m ptr str ds l X M (K & U & R). pose proof (x_inv _ _ _ _ _ _ _ X) as XI.
    rewrite evargs_S, c_args_S. destruct ds as [|d dr], l as [|a r]; cbn [ok_args forallb flat_map] in K, U, R; try discriminate; [reflexivity|].
    apply andb_true_iff in K. destruct K as (K1 & K2). apply andb_true_iff in U. destruct U as (U1 & U2).
    rewrite (IA p os rho) by (assumption || (split; [|split]; [assumption.. | eapply incl_app_l; eassumption])).
    pose proof (SA p os rho m d a XI M K1) as G.
    destruct (evarg P glob n ((p, os) :: rho) m d a) as [[m1 x]|c| |]; cbn [lift bind fst snd good] in *; try reflexivity.
    destruct G as (G & _).
    rewrite (IAs p os rho) by (first [eapply ctx_kept; eassumption | apply G |
      split; [|split]; [assumption.. | eapply incl_app_r; eassumption]]).
    destruct (evargs P glob n ((p, os) :: rho) m1 dr r) as [[m2 y]|c| |]; cbn [lift bind fst snd]; reflexivity.
  - (* evarg *)
    intros p os rho fr own m ptr str d a X M (K & U & R). pose proof (x_inv _ _ _ _ _ _ _ X) as XI.
    rewrite evarg_S, c_arg_S. destruct a as [e|x|r]; cbn [ok_arg] in K; cbn [uses_arg] in U; cbn [refs_arg] in R.
    + apply andb_true_iff in K. destruct K as (_ & K).
      rewrite (IE p os rho) by (assumption || (split; [|split]; assumption)).
      destruct (eval P glob n ((p, os) :: rho) m e) as [[m1 x]|c| |]; reflexivity.
    + apply andb_true_iff in K. destruct K as (_ & K).
      rewrite (IL p os rho) by (assumption || (split; [|split]; assumption)).
      destruct (locate P glob n ((p, os) :: rho) m x) as [[m1 y]|c| |]; reflexivity.
    + destruct (operand_ok _ _ _ _ _ m _ _ _ _ X K U (incl_cons_h _ _ _ _ R)) as (d0 & o & D & F & O & E1 & E2).
      rewrite E1, E2. cbn [bind]. destruct o as [a|b lens|a t]; cbn [cobj_of]; try reflexivity.
      * rewrite all_set_some. reflexivity.
      * destruct (d_ref d); [reflexivity|]. cbn [c_mem]. destruct (rdc m a); reflexivity.
  - (* call_value *)
    intros p os rho fr own m ptr str r sig l X M K U R (K2 & U2 & R2). pose proof (x_inv _ _ _ _ _ _ _ X) as XI.
    rewrite call_value_S, c_call_value_S.
    assert (KD : ok_desig P p (DVar r) = true).
    { cbn [ok_desig]. unfold has in *. apply andb_true_iff in K. destruct K as (V & W).
      rewrite V. cbn [andb]. destruct (decl_of P r) as [d|]; [|discriminate]. apply kind_scal in W. now rewrite W. }
    rewrite (IL p os rho).
    2,3: assumption.
    2: { split; [exact KD|]. split; [exact U|]. intros y [<-|[]]. exact R. }
    pose proof (SL p os rho m _ XI M KD) as G.
    destruct (locate P glob n ((p, os) :: rho) m (DVar r)) as [[m1 a]|c| |]; cbn [lift bind fst snd good c_mem] in *; try reflexivity.
    destruct G as (G & A). destruct (rd m1 a) as [v|c| |] eqn:RD; cbn [bind]; try reflexivity.
    destruct v as [z|q]; [reflexivity|].
    assert (PQ : val_ok P (VProc q)).
    { destruct G as (E & M1). rewrite <- E in A. destruct (rdc_ok m1 a A) as (c & C1 & l0 & C2 & C3).
      unfold rd in RD. rewrite C1 in RD. cbn [bind] in RD. destruct c as [w|]; [|discriminate]. inversion RD; subst w. eauto. }
    destruct PQ as (pr & Q & PN). rewrite Q. destruct (sig_eqb sig (p_params pr)) eqn:SQ; [|reflexivity].
    apply sig_eqb_eq in SQ. subst sig.
    rewrite (IAs p os rho) by (first [eapply ctx_kept; eassumption | apply G | split; [|split]; assumption]).
    pose proof (SAs p os rho m1 _ _ (inv_kept _ _ _ _ _ XI G) (proj2 G) K2) as G2.
    destruct (evargs P glob n ((p, os) :: rho) m1 (p_params pr) l) as [[m2 xs]|c| |]; cbn [lift bind fst snd good] in *; try reflexivity.
    destruct G2 as (G2 & PX). rewrite PN.
    apply (II ((p, os) :: rho) m2 q pr []).
    + split; [constructor|]. destruct XI as (_ & XI). destruct (kept_trans _ _ _ _ G G2) as (E2 & _). now rewrite E2.
    + apply G2.
    + assumption.
    + now rewrite PN.
    + now rewrite PN.
    + destruct G2 as (E2 & _). now rewrite E2.
    + constructor.
    + apply (x_len _ _ _ _ _ _ _ X).
  - (* invoke *)
    intros rho m q pr rho0 xs ptr str INV M Q D CH PX ER LP. rewrite invoke_S, c_invoke_S, Q, D. cbn [c_mem c_ptr c_str].
    destruct (bind_params_ok _ _ _ _ PX M) as (e1 & os & E1 & M1 & O1). rewrite E1. cbn [bind].
    destruct (c_params_ok _ _ _ _ _ PX M E1) as (ps & C1 & R1). rewrite C1. cbn [bind].
    pose proof (proc_ok P ACC _ _ Q) as K. unfold ok_proc in K. apply andb_true_iff in K. destruct K as (K & KB).
    apply andb_true_iff in K. destruct K as (KP & KL).
    destruct (new_locals_ok _ _ _ KL M1) as (e2 & us & E2 & M2 & O2). rewrite E2.
    destruct (c_locals_ok _ _ _ _ KL E2) as (ls & C2 & R2). rewrite C2. cbv iota beta zeta.
    set (m2 := (m ++ e1) ++ e2) in *.
    assert (OE : env_ok P (shape m2) ((q, os ++ us) :: rho0)).
    { assert (OK : objs_ok (shape m2) (vars pr) (os ++ us)).
      { unfold vars. apply Forall2_app; [|assumption]. unfold m2. rewrite shape_app. now apply objs_ok_app. }
      assert (OE : env_ok P (shape m2) rho0).
      { destruct INV as (INV & _). unfold m2. rewrite !shape_app. now apply env_ok_app, env_ok_app. }
      destruct (p_parent pr) as [r|] eqn:PP.
      - destruct CH as (os' & rho' & ->). econstructor; eassumption.
      - subst rho0. econstructor; eassumption. }
    assert (INV2 : inv P glob (shape m2) ((q, os ++ us) :: rho0)).
    { split; [assumption|]. destruct INV as (_ & G). unfold m2. rewrite !shape_app. now apply objs_ok_app, objs_ok_app. }
    assert (FR : frel (vars pr) (ps ++ ls) (os ++ us)) by (now apply frel_app).
    (* the state in which the body runs, and what undoing the link gives *)
    set (st2 := if scope_leaf P q then mkC m2 ptr str
                else link_scope (mkC m2 ptr str) q (scope_fields P q pr ps ls)).
    assert (ST : c_mem st2 = m2 /\ length (c_ptr st2) = length (procs P) /\
                 env_rel (c_ptr st2) (c_str st2) ((q, os ++ us) :: rho0) /\
                 uptr (c_ptr st2) (c_str st2) q (length str) = ptr /\ firstn (length str) (c_str st2) = str).
    { unfold st2. destruct (scope_leaf P q) eqn:SC.
      - cbn [c_mem c_ptr c_str]. split; [reflexivity|]. split; [assumption|]. split.
        + constructor; [|assumption]. intros NL. cbn [fst] in NL. congruence.
        + split; [unfold uptr; now rewrite SC | apply firstn_all].
      - eapply enter_rel; eassumption. }
    destruct st2 as [m2' ptr2 str2]. cbn [c_mem c_ptr c_str] in ST. destruct ST as (-> & L2 & R3 & UP & FS).
    assert (X2 : ctx (shape m2) q (os ++ us) rho0 (ps ++ ls) ptr2 str2).
    { split; [assumption | exists pr; split; assumption | assumption | assumption]. }
    rewrite (IXs q (os ++ us) rho0) by (first [assumption | now apply body_static]).
    destruct (execs P glob n ((q, os ++ us) :: rho0) m2 (p_body pr)) as [[m3 o]|c| |] eqn:EX; cbn [lift2 bind fst snd]; try reflexivity.
    destruct o as [v|]; cbn [bind].
    + rewrite UP. cbn [c_mem c_ptr c_str]. rewrite FS. reflexivity.
    + rewrite (execs_implicit _ _ _ _ _ EX). destruct (p_fun pr); [reflexivity|].
      rewrite unlink_eq. cbn [c_mem c_ptr c_str lift bind fst snd]. rewrite UP, FS. reflexivity.
  - (* exec *)
    intros p os rho fr own m ptr str s X M (K & U & R). pose proof (x_inv _ _ _ _ _ _ _ X) as XI.
    rewrite exec_S, c_exec_S. destruct s as [d e|q l|r sig l|e a b|e a|o]; cbn [uses_stat refs_stat] in U, R.
    + cbn [ok_stat] in K. apply andb_true_iff in K. destruct K as (K1 & K2). apply andb_true_iff in U. destruct U as (U1 & U2).
      rewrite (IL p os rho) by (assumption || (split; [|split]; [assumption.. | eapply incl_app_l; eassumption])).
      pose proof (SL p os rho m d XI M K1) as G.
      destruct (locate P glob n ((p, os) :: rho) m d) as [[m1 x]|c| |]; cbn [lift lift2 bind fst snd good] in *; try reflexivity.
      destruct G as (G & _).
      rewrite (IE p os rho) by (first [eapply ctx_kept; eassumption | apply G |
        split; [|split]; [assumption.. | eapply incl_app_r; eassumption]]).
      destruct (eval P glob n ((p, os) :: rho) m1 e) as [[m2 y]|c| |]; cbn [lift lift2 bind fst snd c_mem c_ptr c_str]; try reflexivity.
      destruct (wr m2 x y); reflexivity.
    + cbn [ok_stat] in K. apply andb_true_iff in K. destruct K as (K1 & K2). destruct (nth_error (procs P) q) as [pr|] eqn:Q; [|reflexivity].
      rewrite (IAs p os rho) by (assumption || (split; [|split]; assumption)).
      pose proof (SAs p os rho m _ _ XI M K2) as G.
      destruct (evargs P glob n ((p, os) :: rho) m (p_params pr) l) as [[m1 xs]|c| |]; cbn [lift lift2 bind fst snd good] in *; try reflexivity.
      destruct G as (G & PX). destruct (callable_rel _ _ _ _ _ _ _ _ _ X K1 Q) as (rho0 & D1 & D2 & D3 & D4).
      rewrite (II ((p, os) :: rho) m1 q pr rho0 xs ptr str); try assumption;
        [ | eapply inv_kept; eassumption | apply G | destruct G as (G & _); now rewrite G | apply (x_len _ _ _ _ _ _ _ X)].
      destruct (invoke P glob n ((p, os) :: rho) m1 q xs) as [[m2 o]|c| |]; reflexivity.
    + cbn [ok_stat] in K. apply andb_true_iff in K. destruct K as (K1 & K2). apply andb_true_iff in U. destruct U as (U1 & U2).
      rewrite (IV p os rho) by (first [assumption | eapply incl_cons_h; eassumption |
        split; [|split]; [assumption.. | eapply incl_cons_t; eassumption]]).
      destruct (call_value P glob n ((p, os) :: rho) m r sig l) as [[m2 o]|c| |]; reflexivity.
    + cbn [ok_stat] in K. apply andb_true_iff in K. destruct K as (K & K3). apply andb_true_iff in K. destruct K as (K1 & K2).
      apply andb_true_iff in U. destruct U as (U & U3). apply andb_true_iff in U. destruct U as (U1 & U2).
      rewrite (IE p os rho) by (assumption || (split; [|split]; [assumption.. | eapply incl_app_l; eassumption])).
      pose proof (SE p os rho m e XI M K1) as G.
      destruct (eval P glob n ((p, os) :: rho) m e) as [[m1 x]|c| |]; cbn [lift lift2 bind fst snd good] in *; try reflexivity.
      destruct G as (G & _). destruct x as [z|]; [|reflexivity].
      pose proof (incl_app_r _ _ _ _ R) as R'.
      apply (IXs p os rho); [eapply ctx_kept; eassumption | apply G |].
      destruct (z =? 0)%Z; (split; [assumption|]; split; [assumption|]).
      * eapply incl_app_r; eassumption.
      * eapply incl_app_l; eassumption.
    + pose proof K as K0. cbn [ok_stat] in K. apply andb_true_iff in K. destruct K as (K1 & K2).
      pose proof U as U0. apply andb_true_iff in U. destruct U as (U1 & U2).
      rewrite (IE p os rho) by (assumption || (split; [|split]; [assumption.. | eapply incl_app_l; eassumption])).
      pose proof (SE p os rho m e XI M K1) as G.
      destruct (eval P glob n ((p, os) :: rho) m e) as [[m1 x]|c| |]; cbn [lift lift2 bind fst snd good] in *; try reflexivity.
      destruct G as (G & _). destruct x as [z|]; [|reflexivity]. destruct (z =? 0)%Z; [reflexivity|].
      rewrite (IXs p os rho) by (first [eapply ctx_kept; eassumption | apply G |
        split; [|split]; [assumption.. | eapply incl_app_r; eassumption]]).
      pose proof (SXs p os rho m1 a (inv_kept _ _ _ _ _ XI G) (proj2 G) K2) as G2.
      destruct (execs P glob n ((p, os) :: rho) m1 a) as [[m2 o]|c| |]; cbn [lift lift2 bind fst snd good] in *; try reflexivity.
      destruct G2 as (G2 & _). destruct o as [v|]; cbn [bind]; [reflexivity|].
      pose proof (kept_trans _ _ _ _ G G2) as G3.
      apply (IX p os rho); [eapply ctx_kept; eassumption | apply G3 |]. split; [exact K0|]. split; [exact U0 | exact R].
    + destruct (x_fr _ _ _ _ _ _ _ X) as (pr & Q & _). rewrite Q. cbn [ok_stat] in K. rewrite Q in K.
      destruct o as [e|]; [|rewrite unlink_eq; reflexivity]. destruct (p_fun pr) eqn:PF; [|discriminate].
      unfold needs_retval. rewrite PF. cbn [andb]. rewrite unlink_eq.
      destruct (scope_leaf P p) eqn:SC; cbn [negb].
      * unfold uptr. rewrite SC. rewrite (IE p os rho) by (assumption || (split; [|split]; assumption)).
        destruct (eval P glob n ((p, os) :: rho) m e) as [[m1 x]|c| |]; cbn [lift lift2 bind fst snd]; try reflexivity.
        unfold uptr. rewrite SC. reflexivity.
      * rewrite (IE p os rho) by (assumption || (split; [|split]; assumption)).
        destruct (eval P glob n ((p, os) :: rho) m e) as [[m1 x]|c| |]; cbn [lift lift2 bind fst snd]; try reflexivity.
        rewrite unlink_eq. reflexivity.
  - (* execs *)
    intros p os rho fr own m ptr str l X M (K & U & R). pose proof (x_inv _ _ _ _ _ _ _ X) as XI.
    rewrite execs_S, c_execs_S. destruct l as [|s r]; cbn [forallb flat_map] in K, U, R; [reflexivity|].
    apply andb_true_iff in K. destruct K as (K1 & K2). apply andb_true_iff in U. destruct U as (U1 & U2).
    rewrite (IX p os rho) by (assumption || (split; [|split]; [assumption.. | eapply incl_app_l; eassumption])).
    pose proof (SX p os rho m s XI M K1) as G.
    destruct (exec P glob n ((p, os) :: rho) m s) as [[m1 o]|c| |]; cbn [lift lift2 bind fst snd good] in *; try reflexivity.
    destruct G as (G & _). destruct o as [v|]; cbn [bind]; [reflexivity|].
    apply (IXs p os rho); [eapply ctx_kept; eassumption | apply G |].
    split; [assumption|]. split; [assumption|]. eapply incl_app_r; eassumption.
Qed.
End Sim.
