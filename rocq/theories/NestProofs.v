(** * Procedures nested in procedures: the meaning of accepted programs never leaves its storage *)
From Verif Require Import Base NestSpec NestModel NestEqs.
From Coq Require Import Arith.
Local Open Scope nat_scope.

(** ** Lists *)
Lemma upd_length : forall A (l : list A) i x, length (upd l i x) = length l.
Proof. intros A l. induction l as [|h t IH]; intros [|i] x; cbn; auto. Qed.

Lemma upd_same : forall A (l : list A) i x, i < length l -> nth_error (upd l i x) i = Some x.
Proof. intros A l. induction l as [|h t IH]; intros [|i] x H; cbn in *; try lia; [reflexivity | apply IH; lia]. Qed.

Lemma upd_other : forall A (l : list A) i j x, i <> j -> nth_error (upd l i x) j = nth_error l j.
Proof.
  intros A l. induction l as [|h t IH]; intros [|i] [|j] x H; cbn; try reflexivity; try congruence.
  apply IH. congruence.
Qed.

Lemma upd_upd : forall A (l : list A) i x y, upd (upd l i x) i y = upd l i y.
Proof. intros A l. induction l as [|h t IH]; intros [|i] x y; cbn; [reflexivity..|]. now rewrite IH. Qed.

Lemma upd_self : forall A (l : list A) i x, nth_error l i = Some x -> upd l i x = l.
Proof.
  intros A l. induction l as [|h t IH]; intros [|i] x H; cbn in *; try congruence. now rewrite (IH _ _ H).
Qed.

Lemma map_upd : forall A B (f : A -> B) l i x, map f (upd l i x) = upd (map f l) i (f x).
Proof. intros A B f l. induction l as [|h t IH]; intros [|i] x; cbn; [reflexivity..|]. now rewrite IH. Qed.

Lemma upd_in : forall A (l : list A) i j x y, nth_error (upd l i x) j = Some y -> y = x \/ nth_error l j = Some y.
Proof.
  intros A l. induction l as [|h t IH]; intros [|i] [|j] x y H; cbn in *; try (right; assumption).
  - left. congruence.
  - apply (IH i j x y H).
Qed.

(** ** Storage *)
Definition shape (m : mem) : list nat := map (@length _) m.

Definition addr_ok (sh : list nat) (a : addr) : Prop := exists n, nth_error sh (fst a) = Some n /\ snd a < n.

Lemma shape_at : forall m b n, nth_error (shape m) b = Some n -> exists l, nth_error m b = Some l /\ length l = n.
Proof.
  intros m b n H. unfold shape in H. rewrite nth_error_map in H.
  destruct (nth_error m b) as [l|]; cbn in H; [|discriminate]. exists l. split; congruence.
Qed.

Lemma rdc_ok : forall m a, addr_ok (shape m) a -> exists c, rdc m a = Ok c /\
  exists l, nth_error m (fst a) = Some l /\ nth_error l (snd a) = Some c.
Proof.
  intros m [b k] (n & H1 & H2). cbn [fst snd] in *. apply shape_at in H1. destruct H1 as (l & H1 & H3).
  unfold rdc. cbn [fst snd]. rewrite H1.
  destruct (nth_error l k) as [c|] eqn:E.
  - exists c. split; [reflexivity|]. exists l. split; [reflexivity | assumption].
  - apply nth_error_None in E. lia.
Qed.

Lemma wr_ok : forall m a v, addr_ok (shape m) a -> exists l, nth_error m (fst a) = Some l /\ snd a < length l /\
  wr m a v = Ok (upd m (fst a) (upd l (snd a) (Some v))) /\ shape (upd m (fst a) (upd l (snd a) (Some v))) = shape m.
Proof.
  intros m [b k] v (n & H1 & H2). cbn [fst snd] in *. pose proof H1 as H0. apply shape_at in H1.
  destruct H1 as (l & H1 & H3). exists l. split; [assumption|]. split; [lia|]. unfold wr. cbn [fst snd]. rewrite H1.
  assert (E : (k <? length l) = true) by (apply Nat.ltb_lt; lia). rewrite E. split; [reflexivity|].
  unfold shape in *. rewrite map_upd, upd_length, H3. now apply upd_self.
Qed.

Lemma addr_ok_app : forall sh e a, addr_ok sh a -> addr_ok (sh ++ e) a.
Proof.
  intros sh e a (n & H1 & H2). exists n. split; [|assumption]. rewrite nth_error_app1; [assumption|].
  apply nth_error_Some. congruence.
Qed.

(** ** Typing of activations *)
Section Safe.
Variable P : prog.
Hypothesis ACC : accepted P = true.

Definition obj_ok (sh : list nat) (d : decl) (o : obj) : Prop :=
  match d_kind d, o with
  | KScal, OScal a => addr_ok sh a
  | KFix dims, OArr b lens => lens = dims /\ nth_error sh b = Some (prod dims)
  | KOpen n, OArr b lens => length lens = n /\ nth_error sh b = Some (prod lens)
  | KRec t, ORec a t1 => addr_ok sh a /\ (d_ref d = false -> t1 = t)
  | _, _ => False
  end.

Lemma obj_ok_app : forall sh e d o, obj_ok sh d o -> obj_ok (sh ++ e) d o.
Proof.
  intros sh e d o H. unfold obj_ok in *.
  assert (N : forall b n, nth_error sh b = Some n -> nth_error (sh ++ e) b = Some n).
  { intros b n E. rewrite nth_error_app1; [assumption|]. apply nth_error_Some. congruence. }
  destruct (d_kind d), o; try contradiction.
  - now apply addr_ok_app.
  - destruct H as (-> & H). split; [reflexivity|]. auto.
  - destruct H as (H1 & H). split; auto.
  - destruct H as (H1 & H). split; [now apply addr_ok_app | assumption].
Qed.

Definition objs_ok (sh : list nat) (ds : list decl) (os : list obj) : Prop := Forall2 (obj_ok sh) ds os.

Lemma objs_ok_app : forall sh e ds os, objs_ok sh ds os -> objs_ok (sh ++ e) ds os.
Proof. intros sh e ds os H. induction H; constructor; [now apply obj_ok_app | assumption]. Qed.

Lemma objs_ok_nth : forall sh ds os i d, objs_ok sh ds os -> nth_error ds i = Some d ->
  exists o, nth_error os i = Some o /\ obj_ok sh d o.
Proof.
  intros sh ds os i d H. revert i. induction H as [|d0 o0 ds os H0 H IH]; intros [|i] E; cbn in *; try discriminate.
  - exists o0. split; congruence.
  - auto.
Qed.

Inductive env_ok (sh : list nat) : env -> Prop :=
| eo_nil : env_ok sh []
| eo_out : forall p pr os, nth_error (procs P) p = Some pr -> objs_ok sh (vars pr) os ->
    p_parent pr = None -> env_ok sh [(p, os)]
| eo_in : forall p pr os q os' rho, nth_error (procs P) p = Some pr -> objs_ok sh (vars pr) os ->
    p_parent pr = Some q -> env_ok sh ((q, os') :: rho) -> env_ok sh ((p, os) :: (q, os') :: rho).

Lemma env_ok_app : forall sh e rho, env_ok sh rho -> env_ok (sh ++ e) rho.
Proof.
  intros sh e rho H. induction H; econstructor; eauto using objs_ok_app.
Qed.

Lemma env_head : forall sh p os rho, env_ok sh ((p, os) :: rho) ->
  exists pr, nth_error (procs P) p = Some pr /\ objs_ok sh (vars pr) os.
Proof. intros sh p os rho H. inversion H; subst; eauto. Qed.

Lemma inside_ok : forall sh q n rho p os, env_ok sh ((p, os) :: rho) -> anc P n p q = true ->
  exists os' rho', inside ((p, os) :: rho) q = Some ((q, os') :: rho') /\ env_ok sh ((q, os') :: rho').
Proof.
  intros sh q n. induction n as [|n IH]; intros rho p os H A; cbn [anc] in A.
  - rewrite orb_false_r in A. apply Nat.eqb_eq in A. subst q. exists os, rho. cbn [inside].
    rewrite Nat.eqb_refl. split; [reflexivity | assumption].
  - destruct (p =? q) eqn:E.
    + apply Nat.eqb_eq in E. subst q. exists os, rho. cbn [inside]. rewrite Nat.eqb_refl. auto.
    + cbn [orb] in A. unfold parent in A.
      inversion H as [|p' pr' os1 Q' O' N'|p' pr' os1 q' os2 rho2 Q' O' N' E']; subst; rewrite Q', N' in A;
        [discriminate|].
      destruct (IH _ _ _ E' A) as (os'' & rho'' & E1 & E2). exists os'', rho''. split; [|assumption].
      cbn [inside] in *. rewrite E. exact E1.
Qed.

Lemma frame_inside : forall rho q os rho', inside rho q = Some ((q, os) :: rho') -> frame_of rho q = Some os.
Proof.
  induction rho as [|[p os0] rho IH]; intros q os rho' H; cbn in *; [discriminate|].
  destruct (p =? q); [congruence | eauto].
Qed.

Variable glob : list obj.

Definition inv (sh : list nat) (rho : env) : Prop := env_ok sh rho /\ objs_ok sh (globals P) glob.

Lemma lookup_ok : forall sh p os rho r f, inv sh ((p, os) :: rho) -> has P p r f = true ->
  exists d o, decl_of P r = Some d /\ f d = true /\ lookup glob ((p, os) :: rho) r = Ok o /\ obj_ok sh d o.
Proof.
  intros sh p os rho r f (H & G) V. unfold has in V. apply andb_true_iff in V. destruct V as (V & W).
  destruct (decl_of P r) as [d|] eqn:D; [|discriminate]. destruct r as [i|q i]; cbn [decl_of visible lookup] in *.
  - destruct (objs_ok_nth _ _ _ _ _ G D) as (o & E1 & E2). exists d, o. rewrite E1. auto.
  - destruct (inside_ok _ _ _ _ _ _ H V) as (os' & rho' & E1 & E2).
    rewrite (frame_inside _ _ _ _ E1). destruct (env_head _ _ _ _ E2) as (pr & E3 & E4). rewrite E3 in D.
    destruct (objs_ok_nth _ _ _ _ _ E4 D) as (o & E5 & E6). exists d, o. rewrite E5. auto.
Qed.

(** Procedure values are procedures of the module level. *)
Definition val_ok (v : val) : Prop :=
  match v with VInt _ => True | VProc q => exists pr, nth_error (procs P) q = Some pr /\ p_parent pr = None end.

Definition mem_ok (m : mem) : Prop :=
  forall b l k v, nth_error m b = Some l -> nth_error l k = Some (Some v) -> val_ok v.

Lemma mem_ok_app : forall m l, mem_ok m -> (forall k v, nth_error l k = Some (Some v) -> val_ok v) -> mem_ok (m ++ [l]).
Proof.
  intros m l H1 H2 b l0 k v E1 E2. destruct (Nat.lt_ge_cases b (length m)) as [L|L].
  - rewrite nth_error_app1 in E1 by assumption. eauto.
  - rewrite nth_error_app2 in E1 by assumption. destruct (b - length m) as [|x]; cbn in E1; [|destruct x; discriminate].
    inversion E1; subst. eauto.
Qed.

Lemma mem_ok_firstn : forall m n, mem_ok m -> mem_ok (firstn n m).
Proof.
  intros m n H b l k v E1 E2. apply (H b l k v); [|assumption].
  revert b E1. revert m H. induction n as [|n IH]; intros [|h t] H [|b] E1; cbn in *; try discriminate; try assumption.
  apply (IH t); [|assumption]. intros b' l' k' v' X Y. apply (H (S b') l' k' v'); assumption.
Qed.

Lemma mem_ok_wr : forall m a v l, mem_ok m -> val_ok v -> nth_error m (fst a) = Some l ->
  mem_ok (upd m (fst a) (upd l (snd a) (Some v))).
Proof.
  intros m a v l H V L b l0 k w E1 E2. apply upd_in in E1. destruct E1 as [E1|E1]; [|eauto].
  subst l0. apply upd_in in E2. destruct E2 as [E2|E2]; [|eauto]. congruence.
Qed.

Lemma repeat_none : forall n k v, nth_error (repeat (@None val) n) k = Some (Some v) -> False.
Proof. induction n as [|n IH]; intros [|k] v H; cbn in H; try discriminate. eauto. Qed.

(** ** New storage *)
Lemma new_local_ok : forall m d, ok_local d = true -> mem_ok m ->
  exists l o, new_local m d = (m ++ [l], o) /\ mem_ok (m ++ [l]) /\ obj_ok (shape (m ++ [l])) d o.
Proof.
  intros m d K M. unfold ok_local in K. apply andb_true_iff in K. destruct K as (_ & K). unfold new_local, obj_ok.
  assert (N : forall l, nth_error (shape (m ++ [l])) (length m) = Some (length l)).
  { intros l. unfold shape. rewrite map_app, nth_error_app2 by (rewrite map_length; lia).
    rewrite map_length, Nat.sub_diag. reflexivity. }
  destruct (d_kind d) as [|dims|n|t]; try discriminate.
  - exists [None], (OScal (length m, 0)). split; [reflexivity|]. split.
    + apply mem_ok_app; [assumption|]. intros [|[|k]] v E; discriminate.
    + exists 1. cbn [fst snd]. rewrite N. split; [reflexivity | lia].
  - exists (repeat None (prod dims)), (OArr (length m) dims). split; [reflexivity|]. split.
    + apply mem_ok_app; [assumption|]. intros k v E. destruct (repeat_none _ _ _ E).
    + split; [reflexivity|]. rewrite N, repeat_length. reflexivity.
  - exists [None], (ORec (length m, 0) t). split; [reflexivity|]. split.
    + apply mem_ok_app; [assumption|]. intros [|[|k]] v E; discriminate.
    + split; [|reflexivity]. exists 1. cbn [fst snd]. rewrite N. split; [reflexivity | lia].
Qed.

Lemma shape_app : forall a b, shape (a ++ b) = shape a ++ shape b.
Proof. intros. apply map_app. Qed.

Lemma new_locals_ok : forall ds m, forallb ok_local ds = true -> mem_ok m ->
  exists e os, new_locals m ds = (m ++ e, os) /\ mem_ok (m ++ e) /\ objs_ok (shape (m ++ e)) ds os.
Proof.
  induction ds as [|d ds IH]; intros m K M; cbn [new_locals].
  - exists [], []. rewrite app_nil_r. split; [reflexivity|]. split; [assumption | constructor].
  - cbn [forallb] in K. apply andb_true_iff in K. destruct K as (K1 & K2).
    destruct (new_local_ok m d K1 M) as (l & o & E1 & M1 & O1). rewrite E1.
    destruct (IH (m ++ [l]) K2 M1) as (e & os & E2 & M2 & O2). rewrite E2.
    exists ([l] ++ e), (o :: os). rewrite app_assoc. split; [reflexivity|]. split; [assumption|].
    constructor; [|assumption]. rewrite shape_app. now apply obj_ok_app.
Qed.

Definition pass_ok (sh : list nat) (d : decl) (x : pass) : Prop :=
  match d_ref d, d_kind d, x with
  | false, KScal, PVal v => val_ok v
  | true, KScal, PRef a => addr_ok sh a
  | _, KFix dims, PArr b lens => lens = dims /\ nth_error sh b = Some (prod dims)
  | _, KOpen n, PArr b lens => length lens = n /\ nth_error sh b = Some (prod lens)
  | false, KRec t, PRecV c => forall v, c = Some v -> val_ok v
  | true, KRec _, PRec a t => addr_ok sh a
  | _, _, _ => False
  end.

Lemma pass_ok_app : forall sh e d x, pass_ok sh d x -> pass_ok (sh ++ e) d x.
Proof.
  intros sh e d x H. unfold pass_ok in *.
  assert (N : forall b n, nth_error sh b = Some n -> nth_error (sh ++ e) b = Some n).
  { intros b n E. rewrite nth_error_app1; [assumption|]. apply nth_error_Some. congruence. }
  destruct (d_ref d), (d_kind d), x; try contradiction; try (now apply addr_ok_app); try assumption;
    destruct H as (H1 & H2); split; auto.
Qed.

Lemma bind_param_ok : forall m d x, pass_ok (shape m) d x -> mem_ok m ->
  exists e o, bind_param m d x = Ok (m ++ e, o) /\ mem_ok (m ++ e) /\ obj_ok (shape (m ++ e)) d o.
Proof.
  intros m d x H M. unfold pass_ok in H. unfold bind_param, obj_ok.
  assert (N : forall l, nth_error (shape (m ++ [l])) (length m) = Some (length l)).
  { intros l. unfold shape. rewrite map_app, nth_error_app2 by (rewrite map_length; lia).
    rewrite map_length, Nat.sub_diag. reflexivity. }
  assert (C : forall b n, nth_error (shape m) b = Some n ->
    exists l, blk m b = Ok l /\ length l = n /\ mem_ok (m ++ [l])).
  { intros b n E. apply shape_at in E. destruct E as (l & E1 & E2). exists l. unfold blk. rewrite E1.
    split; [reflexivity|]. split; [assumption|]. apply mem_ok_app; [assumption|]. intros k v E. eauto. }
  destruct (d_ref d) eqn:R, (d_kind d) as [|dims|n|t] eqn:K, x as [v|a|b lens|c|a t1]; try contradiction.
  - exists [], (OScal a). rewrite app_nil_r. auto.
  - destruct H as (-> & H). exists [], (OArr b dims). rewrite app_nil_r. auto.
  - destruct H as (H0 & H). exists [], (OArr b lens). rewrite app_nil_r. auto.
  - exists [], (ORec a t1). rewrite app_nil_r. split; [reflexivity|]. split; [assumption|]. split; [assumption|discriminate].
  - exists [[Some v]], (OScal (length m, 0)). split; [reflexivity|]. split.
    + apply mem_ok_app; [assumption|]. intros [|[|k]] w E; cbn in E; try discriminate. congruence.
    + exists 1. cbn [fst snd]. rewrite N. split; [reflexivity | lia].
  - destruct H as (-> & H). destruct (C _ _ H) as (l & E1 & E2 & E3). exists [l], (OArr (length m) dims).
    rewrite E1. cbn [bind]. split; [reflexivity|]. split; [assumption|]. rewrite N, E2. auto.
  - destruct H as (H0 & H). destruct (C _ _ H) as (l & E1 & E2 & E3). exists [l], (OArr (length m) lens).
    rewrite E1. cbn [bind]. split; [reflexivity|]. split; [assumption|]. rewrite N, E2. auto.
  - exists [[c]], (ORec (length m, 0) t). split; [reflexivity|]. split.
    + apply mem_ok_app; [assumption|]. intros [|[|k]] w E; cbn in E; try discriminate. apply H. congruence.
    + split; [|reflexivity]. exists 1. cbn [fst snd]. rewrite N. split; [reflexivity | lia].
Qed.

Lemma bind_params_ok : forall ds xs m, Forall2 (pass_ok (shape m)) ds xs -> mem_ok m ->
  exists e os, bind_params m ds xs = Ok (m ++ e, os) /\ mem_ok (m ++ e) /\ objs_ok (shape (m ++ e)) ds os.
Proof.
  induction ds as [|d ds IH]; intros xs m H M; inversion H; subst; cbn [bind_params].
  - exists [], []. rewrite app_nil_r. split; [reflexivity|]. split; [assumption | constructor].
  - destruct (bind_param_ok m d y H2 M) as (e1 & o & E1 & M1 & O1). rewrite E1. cbn [bind].
    assert (H5 : Forall2 (pass_ok (shape (m ++ e1))) ds l').
    { rewrite shape_app. clear - H4. induction H4; constructor; [now apply pass_ok_app | assumption]. }
    destruct (IH _ _ H5 M1) as (e2 & os & E2 & M2 & O2). rewrite E2. cbn [bind].
    exists (e1 ++ e2), (o :: os). rewrite app_assoc. split; [reflexivity|]. split; [assumption|].
    constructor; [|assumption]. rewrite shape_app. now apply obj_ok_app.
Qed.

Lemma offset_bound : forall lens ix acc k, offset acc lens ix = Ok k -> k < S acc * prod lens.
Proof.
  induction lens as [|n ls IH]; intros [|i is] acc k H; cbn [offset prod fold_right] in *; try discriminate.
  - inversion H; subst. lia.
  - destruct ((0 <=? i) && (i <? Z.of_nat n))%Z eqn:E; [|discriminate]. apply IH in H. fold (prod ls).
    apply andb_true_iff in E. destruct E as (E1 & E2). apply Z.leb_le in E1. apply Z.ltb_lt in E2.
    assert (S (acc * n + Z.to_nat i) * prod ls <= S acc * n * prod ls); [|lia].
    apply Nat.mul_le_mono_r. lia.
Qed.

Lemma offset_trap : forall lens ix acc c, offset acc lens ix = Trap c -> c = (-2)%Z.
Proof.
  induction lens as [|n ls IH]; intros [|i is] acc c H; cbn [offset] in *; try discriminate.
  destruct ((0 <=? i) && (i <? Z.of_nat n))%Z; [eauto | congruence].
Qed.

(** ** The evaluator keeps the storage well typed and never leaves it *)
Definition good {A} (Q : A -> Prop) (r : res A) : Prop :=
  match r with Ok a => Q a | Trap c => c <> dangling | UB | Fuel => True end.

Lemma good_bind : forall A B (Q : A -> Prop) (R : B -> Prop) x k,
  good Q x -> (forall a, x = Ok a -> Q a -> good R (k a)) -> good R (bind x k).
Proof. intros A B Q R [a|c| |] k H1 H2; cbn in *; auto. Qed.

Definition kept (m : mem) (m' : mem) : Prop := shape m' = shape m /\ mem_ok m'.

Lemma ok_procs_nth : forall l k p pr, ok_procs P k l = true -> nth_error l p = Some pr -> ok_proc P (k + p) pr = true.
Proof.
  induction l as [|x l IH]; intros k [|p] pr H E; cbn in *; try discriminate; apply andb_true_iff in H; destruct H as (H1 & H2).
  - rewrite Nat.add_0_r. congruence.
  - rewrite <- Nat.add_succ_comm. eauto.
Qed.

Lemma proc_ok : forall p pr, nth_error (procs P) p = Some pr -> ok_proc P p pr = true.
Proof.
  intros p pr E. pose proof ACC as A. unfold accepted in A. apply andb_true_iff in A. destruct A as (_ & H).
  exact (ok_procs_nth _ 0 _ _ H E).
Qed.

Lemma ok_args_go : forall p ds l,
  (fix go (ds : list decl) (l : list arg) {struct l} : bool :=
     match ds, l with [], [] => true | d :: dr, a :: r => ok_arg P p d a && go dr r | _, _ => false end) ds l
  = ok_args P p ds l.
Proof. intros p ds l. revert ds. induction l as [|a l IH]; intros [|d ds]; cbn; [reflexivity..|]. now rewrite IH. Qed.

Lemma ok_exprs_go : forall p l,
  (fix go (l : list expr) : bool := match l with [] => true | e :: r => ok_expr P p e && go r end) l
  = forallb (ok_expr P p) l.
Proof. intros p l. induction l as [|a l IH]; cbn; [reflexivity|]. now rewrite IH. Qed.

Definition safe_at (n : nat) : Prop :=
  (forall p os rho m e, inv (shape m) ((p, os) :: rho) -> mem_ok m -> ok_expr P p e = true ->
     good (fun r => kept m (fst r) /\ val_ok (snd r)) (eval P glob n ((p, os) :: rho) m e)) /\
  (forall p os rho m d, inv (shape m) ((p, os) :: rho) -> mem_ok m -> ok_desig P p d = true ->
     good (fun r => kept m (fst r) /\ addr_ok (shape m) (snd r)) (locate P glob n ((p, os) :: rho) m d)) /\
  (forall p os rho m l, inv (shape m) ((p, os) :: rho) -> mem_ok m -> forallb (ok_expr P p) l = true ->
     good (fun r => kept m (fst r)) (evals P glob n ((p, os) :: rho) m l)) /\
  (forall p os rho m ds l, inv (shape m) ((p, os) :: rho) -> mem_ok m -> ok_args P p ds l = true ->
     good (fun r => kept m (fst r) /\ Forall2 (pass_ok (shape m)) ds (snd r)) (evargs P glob n ((p, os) :: rho) m ds l)) /\
  (forall p os rho m d a, inv (shape m) ((p, os) :: rho) -> mem_ok m -> ok_arg P p d a = true ->
     good (fun r => kept m (fst r) /\ pass_ok (shape m) d (snd r)) (evarg P glob n ((p, os) :: rho) m d a)) /\
  (forall p os rho m r sig l, inv (shape m) ((p, os) :: rho) -> mem_ok m ->
     has P p r (fun d => kind_eqb (d_kind d) KScal) = true -> ok_args P p sig l = true ->
     good (fun x => kept m (fst x) /\ (forall v, snd x = Some v -> val_ok v))
          (call_value P glob n ((p, os) :: rho) m r sig l)) /\
  (forall rho m q pr rho0 xs, inv (shape m) rho0 -> mem_ok m -> nth_error (procs P) q = Some pr ->
     decl_env rho (p_parent pr) = Some rho0 ->
     match p_parent pr with None => rho0 = [] | Some r => exists os' rho', rho0 = (r, os') :: rho' end ->
     Forall2 (pass_ok (shape m)) (p_params pr) xs ->
     good (fun x => kept m (fst x) /\ (forall v, snd x = Some v -> val_ok v)) (invoke P glob n rho m q xs)) /\
  (forall p os rho m s, inv (shape m) ((p, os) :: rho) -> mem_ok m -> ok_stat P p s = true ->
     good (fun r => kept m (fst r) /\ (forall v, snd r = Some (Some v) -> val_ok v)) (exec P glob n ((p, os) :: rho) m s)) /\
  (forall p os rho m l, inv (shape m) ((p, os) :: rho) -> mem_ok m -> forallb (ok_stat P p) l = true ->
     good (fun r => kept m (fst r) /\ (forall v, snd r = Some (Some v) -> val_ok v)) (execs P glob n ((p, os) :: rho) m l)).

Lemma inv_kept : forall m m' rho, inv (shape m) rho -> kept m m' -> inv (shape m') rho.
Proof. intros m m' rho H (E & _). now rewrite E. Qed.

Lemma kept_trans : forall a b c, kept a b -> kept b c -> kept a c.
Proof. intros a b c (E1 & _) (E2 & M). split; [congruence | assumption]. Qed.

(** The environment a visible procedure runs in. *)
Lemma callable_env : forall sh p os rho q pr, inv sh ((p, os) :: rho) -> callable P p q = true ->
  nth_error (procs P) q = Some pr ->
  exists rho0, decl_env ((p, os) :: rho) (p_parent pr) = Some rho0 /\ inv sh rho0 /\
    match p_parent pr with None => rho0 = [] | Some r => exists os' rho', rho0 = (r, os') :: rho' end.
Proof.
  intros sh p os rho q pr (H & G) C E. unfold callable in C. rewrite E in C.
  destruct (p_parent pr) as [r|] eqn:K; cbn [decl_env].
  - destruct (inside_ok _ _ _ _ _ _ H C) as (os' & rho' & E1 & E2). exists ((r, os') :: rho'). split; [assumption|].
    split; [split; assumption|]. eauto.
  - exists []. split; [reflexivity|]. split; [split; [constructor | assumption] | reflexivity].
Qed.

Lemma sig_eqb_eq : forall a b, sig_eqb a b = true -> a = b.
Proof.
  induction a as [|[r k] a IH]; intros [|[r' k'] b] H; cbn in H; try discriminate; [reflexivity|].
  apply andb_true_iff in H. destruct H as (H1 & H2). unfold decl_eqb in H1. cbn in H1.
  apply andb_true_iff in H1. destruct H1 as (H0 & H1). apply Bool.eqb_prop in H0. subst r'.
  rewrite (IH _ H2). f_equal. f_equal. destruct k, k'; cbn in H1; try discriminate; try reflexivity.
  - destruct (list_eq_dec Nat.eq_dec dims dims0); [now subst | discriminate].
  - apply Nat.eqb_eq in H1. now subst.
  - apply Nat.eqb_eq in H1. now subst.
Qed.

Lemma kind_scal : forall k, kind_eqb k KScal = true -> k = KScal.
Proof. intros k H. destruct k; cbn in H; try discriminate. reflexivity. Qed.

Lemma kind_fix : forall a b, kind_eqb (KFix a) (KFix b) = true -> a = b.
Proof. intros a b H. cbn in H. destruct (list_eq_dec Nat.eq_dec a b); [assumption | discriminate]. Qed.

Lemma safe : forall n, safe_at n.
Proof.
  induction n as [|n IH].
  - repeat split; intros; exact I.
  - destruct IH as (IE & IL & IEs & IAs & IA & IV & II & IX & IXs). unfold safe_at. repeat match goal with |- _ /\ _ => split end.
    + (* eval *)
      intros p os rho m e INV M K. rewrite eval_S. destruct e as [z|q|d|r k|r|f a b|q l|r sig l]; cbn [ok_expr] in K.
      * cbn. repeat split; assumption || exact I.
      * cbn. repeat split; [assumption|]. destruct (nth_error (procs P) q) as [pr|]; [|discriminate].
        exists pr. split; [reflexivity|]. destruct (p_parent pr); [discriminate | reflexivity].
      * eapply good_bind; [apply IL; assumption|]. intros [m1 a] _ ((E & M1) & A). cbn [fst snd] in *.
        rewrite <- E in A. destruct (rdc_ok m1 a A) as (c & C1 & l & C2 & C3). unfold rd. rewrite C1. cbn [bind].
        destruct c as [v|]; cbn [bind good]; [|exact I]. cbn. repeat split; [assumption..|]. eauto.
      * destruct (lookup_ok _ _ _ _ _ _ INV K) as (d & o & D & F & E & O). rewrite E. cbn [bind].
        destruct o; try exact I. destruct (nth_error lens k); [|exact I]. cbn. repeat split. assumption.
      * destruct (lookup_ok _ _ _ _ _ _ INV K) as (d & o & D & F & E & O). rewrite E. cbn [bind].
        destruct o; try exact I. cbn. repeat split. assumption.
      * apply andb_true_iff in K. destruct K as (K1 & K2).
        eapply good_bind; [apply IE; assumption|]. intros [m1 x] _ (KM & _). cbn [fst snd] in *.
        eapply good_bind; [apply IE; [eapply inv_kept; eassumption | apply KM | assumption]|].
        intros [m2 y] _ (KM2 & _). cbn [fst snd] in *. destruct x, y; try exact I.
        cbn. split; [eapply kept_trans; eassumption | exact I].
      * apply andb_true_iff in K. destruct K as (K1 & K2). destruct (nth_error (procs P) q) as [pr|] eqn:Q; [|exact I].
        rewrite ok_args_go in K2.
        eapply good_bind; [apply IAs; eassumption|]. intros [m1 xs] _ (KM & PX). cbn [fst snd] in *.
        destruct (callable_env _ _ _ _ _ _ INV K1 Q) as (rho0 & D1 & D2 & D3).
        eapply good_bind.
        { apply (II _ _ _ pr rho0); try eassumption; [eapply inv_kept; eassumption | apply KM |].
          destruct KM as (E & _). now rewrite E. }
        intros [m2 o] _ (KM2 & V). cbn [fst snd] in *. destruct o as [v|]; [|exact I]. cbn.
        split; [eapply kept_trans; eassumption | auto].
      * apply andb_true_iff in K. destruct K as (K1 & K2). rewrite ok_args_go in K2.
        eapply good_bind; [apply IV; assumption|]. intros [m1 o] _ (KM & V). cbn [fst snd] in *.
        destruct o as [v|]; [|exact I]. cbn. auto.
    + (* locate *)
      intros p os rho m d INV M K. rewrite locate_S. destruct d as [r|r l|r t]; cbn [ok_desig] in K.
      * destruct (lookup_ok _ _ _ _ _ _ INV K) as (d & o & D & F & E & O). rewrite E. cbn [bind].
        unfold obj_ok in O. destruct (d_kind d), o; try contradiction; try exact I; try discriminate; cbn;
          repeat split; tauto.
      * apply andb_true_iff in K. destruct K as (K1 & K2). rewrite ok_exprs_go in K2.
        destruct (lookup_ok _ _ _ _ _ _ INV K1) as (d & o & D & F & E & O). rewrite E. cbn [bind].
        destruct o as [|b lens|]; try exact I.
        eapply good_bind; [apply IEs; assumption|]. intros [m1 ix] _ KM. cbn [fst] in KM.
        destruct (offset 0 lens ix) as [k|c| |] eqn:OF; cbn; try exact I.
        -- split; [assumption|]. apply offset_bound in OF. exists (prod lens). cbn [fst snd].
           unfold obj_ok in O. destruct (d_kind d); try contradiction; destruct O as (O1 & O2); [subst lens|];
             (split; [assumption|lia]).
        -- apply offset_trap in OF. subst c. discriminate.
      * destruct (lookup_ok _ _ _ _ _ _ INV K) as (d & o & D & F & E & O). rewrite E. cbn [bind].
        unfold obj_ok in O. destruct (d_kind d), o; try contradiction; try exact I.
        destruct (t1 =? t); cbn; [|discriminate]. repeat split; tauto.
    + (* evals *)
      intros p os rho m l INV M K. rewrite evals_S. destruct l as [|e r]; cbn [forallb] in K.
      * cbn. split; [reflexivity | assumption].
      * apply andb_true_iff in K. destruct K as (K1 & K2).
        eapply good_bind; [apply IE; assumption|]. intros [m1 x] _ (KM & _). cbn [fst snd] in *.
        eapply good_bind; [apply IEs; [eapply inv_kept; eassumption | apply KM | assumption]|].
        intros [m2 zs] _ KM2. cbn [fst snd] in *. destruct x; [|exact I]. cbn. eapply kept_trans; eassumption.
    + (* evargs *)
      intros p os rho m ds l INV M K. rewrite evargs_S. destruct ds as [|d dr], l as [|a r]; cbn [ok_args] in K; try discriminate.
      * cbn. repeat split; [assumption | constructor].
      * apply andb_true_iff in K. destruct K as (K1 & K2).
        eapply good_bind; [apply IA; eassumption|]. intros [m1 x] _ (KM & X). cbn [fst snd] in *.
        eapply good_bind; [apply IAs; [eapply inv_kept; eassumption | apply KM | eassumption]|].
        intros [m2 xs] _ (KM2 & XS). cbn [fst snd] in *. cbn. split; [eapply kept_trans; eassumption|].
        constructor; [assumption|]. destruct KM as (E & _). now rewrite E in XS.
    + (* evarg *)
      intros p os rho m d a INV M K. rewrite evarg_S. destruct a as [e|x|r]; cbn [ok_arg] in K.
      * apply andb_true_iff in K. destruct K as (K1 & K2). apply andb_true_iff in K1. destruct K1 as (K0 & K1).
        apply kind_scal in K1. apply negb_true_iff in K0.
        eapply good_bind; [apply IE; assumption|]. intros [m1 v] _ (KM & V). cbn [fst snd] in *. cbn.
        split; [assumption|]. unfold pass_ok. now rewrite K0, K1.
      * apply andb_true_iff in K. destruct K as (K1 & K2). apply andb_true_iff in K1. destruct K1 as (K0 & K1).
        apply kind_scal in K1.
        eapply good_bind; [apply IL; assumption|]. intros [m1 v] _ (KM & V). cbn [fst snd] in *. cbn.
        split; [assumption|]. unfold pass_ok. now rewrite K0, K1.
      * destruct (lookup_ok _ _ _ _ _ _ INV K) as (d0 & o & D & F & E & O). rewrite E. cbn [bind].
        unfold obj_ok in O. destruct (d_kind d0) as [|dims|k|t] eqn:K0, o as [a0|b lens|a0 t0]; try contradiction; try exact I.
        -- destruct O as (-> & O). cbn. split; [split; [reflexivity | assumption]|]. unfold pass_ok.
           destruct (d_kind d) as [|dims'|k|t]; cbn [whole_ok] in F; try discriminate.
           ++ apply kind_fix in F. subst dims'. destruct (d_ref d); auto.
           ++ cbn [dims_of] in F. apply Nat.eqb_eq in F. destruct (d_ref d); auto.
        -- destruct O as (O0 & O). cbn. split; [split; [reflexivity | assumption]|]. unfold pass_ok.
           destruct (d_kind d) as [|dims'|k'|t]; cbn [whole_ok] in F; try discriminate.
           cbn [dims_of] in F. apply Nat.eqb_eq in F. subst k'. destruct (d_ref d); auto.
        -- destruct O as (O & _). destruct (d_kind d) as [|dims'|k'|t'] eqn:K1; cbn [whole_ok] in F; try discriminate.
           destruct (d_ref d) eqn:R.
           ++ cbn. split; [split; [reflexivity | assumption]|]. unfold pass_ok. now rewrite R, K1.
           ++ destruct (rdc_ok m a0 O) as (c & C1 & l & C2 & C3). rewrite C1. cbn.
              split; [split; [reflexivity | assumption]|]. unfold pass_ok. rewrite R, K1. intros v ->. eauto.
    + (* call_value *)
      intros p os rho m r sig l INV M K1 K2. rewrite call_value_S.
      eapply good_bind.
      { apply IL; [assumption..|]. cbn [ok_desig]. unfold has in *. apply andb_true_iff in K1. destruct K1 as (V & W).
        rewrite V. cbn [andb]. destruct (decl_of P r) as [d|]; [|discriminate]. apply kind_scal in W. now rewrite W. }
      intros [m1 a] _ (KM & A). cbn [fst snd] in *. destruct KM as (E & M1). rewrite <- E in A.
      destruct (rdc_ok m1 a A) as (c & C1 & l0 & C2 & C3). unfold rd. rewrite C1. cbn [bind].
      destruct c as [v|]; cbn [bind good]; [|exact I]. destruct v as [z|q]; [exact I|].
      destruct (M1 _ _ _ _ C2 C3) as (pr & Q & PN). rewrite Q. destruct (sig_eqb sig (p_params pr)) eqn:SE; [|exact I].
      apply sig_eqb_eq in SE. subst sig.
      eapply good_bind; [apply IAs; [now rewrite E | assumption | eassumption]|].
      intros [m2 xs] _ (KM2 & PX). cbn [fst snd] in *. rewrite PN.
      assert (KM : kept m m2) by (eapply kept_trans; [split; [exact E | exact M1] | exact KM2]).
      pose proof (II ((p, os) :: rho) m2 q pr [] xs) as G. rewrite PN in G.
      assert (G1 : good (fun x => kept m2 (fst x) /\ (forall v, snd x = Some v -> val_ok v))
                        (invoke P glob n ((p, os) :: rho) m2 q xs)).
      { apply G; try reflexivity; try assumption; [|apply KM2|].
        - split; [constructor|]. destruct INV as (_ & INV). destruct KM as (E2 & _). now rewrite E2.
        - destruct KM2 as (E2 & _). now rewrite E2. }
      destruct (invoke P glob n ((p, os) :: rho) m2 q xs) as [[m3 o]|c| |]; cbn in *; try assumption.
      destruct G1 as (G1 & G2). split; [eapply kept_trans; eassumption | assumption].
    + (* invoke *)
      intros rho m q pr rho0 xs INV M Q D CH PX. rewrite invoke_S, Q, D.
      destruct (bind_params_ok _ _ _ PX M) as (e1 & ps & E1 & M1 & O1). rewrite E1. cbn [bind].
      pose proof (proc_ok _ _ Q) as K. unfold ok_proc in K. apply andb_true_iff in K. destruct K as (K & KB).
      apply andb_true_iff in K. destruct K as (KP & KL).
      destruct (new_locals_ok _ _ KL M1) as (e2 & ls & E2 & M2 & O2). rewrite E2. cbv iota beta.
      assert (INV2 : inv (shape ((m ++ e1) ++ e2)) ((q, ps ++ ls) :: rho0)).
      { assert (OK : objs_ok (shape ((m ++ e1) ++ e2)) (vars pr) (ps ++ ls)).
        { unfold vars. apply Forall2_app; [|assumption]. rewrite shape_app. now apply objs_ok_app. }
        assert (OE : env_ok (shape ((m ++ e1) ++ e2)) rho0).
        { destruct INV as (INV & _). rewrite !shape_app. now apply env_ok_app, env_ok_app. }
        split.
        - destruct (p_parent pr) as [r|] eqn:PP.
          + destruct CH as (os' & rho' & ->). econstructor; eassumption.
          + subst rho0. econstructor; eassumption.
        - destruct INV as (_ & G). rewrite !shape_app. now apply objs_ok_app, objs_ok_app. }
      eapply good_bind; [apply IXs; eassumption|]. intros [m3 o] _ ((S3 & M3) & V). cbn [fst snd] in *.
      assert (KF : kept m (firstn (length m) m3)).
      { split; [|now apply mem_ok_firstn]. unfold shape in *. rewrite <- firstn_map, S3, !map_app, <- app_assoc.
        rewrite <- (map_length (@length (option val)) m). rewrite firstn_app, firstn_all, Nat.sub_diag. cbn. apply app_nil_r. }
      destruct o as [v|].
      * cbn. split; [assumption|]. intros w Ew. apply V. congruence.
      * destruct (p_fun pr); cbn; [discriminate|]. split; [assumption|]. discriminate.
    + (* exec *)
      intros p os rho m s INV M K. rewrite exec_S. destruct s as [d e|q l|r sig l|e a b|e a|o]; cbn [ok_stat] in K.
      * apply andb_true_iff in K. destruct K as (K1 & K2).
        eapply good_bind; [apply IL; assumption|]. intros [m1 a] _ (KM & A). cbn [fst snd] in *.
        eapply good_bind; [apply IE; [eapply inv_kept; eassumption | apply KM | assumption]|].
        intros [m2 v] _ (KM2 & V). cbn [fst snd] in *. pose proof (kept_trans _ _ _ KM KM2) as KM3.
        destruct KM3 as (E3 & M3). rewrite <- E3 in A. destruct (wr_ok m2 a v A) as (l & L1 & L2 & L3 & L4). rewrite L3.
        cbn. split; [|discriminate]. split; [congruence|]. now apply mem_ok_wr.
      * apply andb_true_iff in K. destruct K as (K1 & K2). destruct (nth_error (procs P) q) as [pr|] eqn:Q; [|exact I].
        eapply good_bind; [apply IAs; eassumption|]. intros [m1 xs] _ (KM & PX). cbn [fst snd] in *.
        destruct (callable_env _ _ _ _ _ _ INV K1 Q) as (rho0 & D1 & D2 & D3).
        eapply good_bind.
        { apply (II _ _ _ pr rho0); try eassumption; [eapply inv_kept; eassumption | apply KM |].
          destruct KM as (E & _). now rewrite E. }
        intros [m2 o] _ (KM2 & V). cbn [fst snd] in *. cbn. split; [eapply kept_trans; eassumption | discriminate].
      * apply andb_true_iff in K. destruct K as (K1 & K2).
        eapply good_bind; [apply IV; assumption|]. intros [m1 o] _ (KM & V). cbn [fst snd] in *. cbn. split; [assumption | discriminate].
      * apply andb_true_iff in K. destruct K as (K & K3). apply andb_true_iff in K. destruct K as (K1 & K2).
        eapply good_bind; [apply IE; assumption|]. intros [m1 v] _ (KM & V). cbn [fst snd] in *.
        destruct v as [z|]; [|exact I].
        assert (G : good (fun r => kept m1 (fst r) /\ (forall v, snd r = Some (Some v) -> val_ok v))
                         (execs P glob n ((p, os) :: rho) m1 (if (z =? 0)%Z then b else a))).
        { apply IXs; [eapply inv_kept; eassumption | apply KM |]. destruct (z =? 0)%Z; assumption. }
        destruct (execs P glob n ((p, os) :: rho) m1 (if (z =? 0)%Z then b else a)) as [[m2 o]|c| |]; cbn in *; try assumption.
        destruct G as (G1 & G2). split; [eapply kept_trans; eassumption | assumption].
      * pose proof K as K0. apply andb_true_iff in K. destruct K as (K1 & K2).
        eapply good_bind; [apply IE; assumption|]. intros [m1 v] _ (KM & V). cbn [fst snd] in *.
        destruct v as [z|]; [|exact I]. destruct (z =? 0)%Z; [cbn; split; [assumption | discriminate]|].
        eapply good_bind; [apply IXs; [eapply inv_kept; eassumption | apply KM | assumption]|].
        intros [m2 o] _ (KM2 & V2). cbn [fst snd] in *. pose proof (kept_trans _ _ _ KM KM2) as KM3.
        destruct o as [w|]; [cbn; split; assumption|].
        assert (G := IX p os rho m2 (SWhile e a) (inv_kept _ _ _ INV KM3) (proj2 KM3) K0).
        destruct (exec P glob n ((p, os) :: rho) m2 (SWhile e a)) as [[m4 o]|c| |]; cbn in *; try assumption.
        destruct G as (G1 & G2). split; [eapply kept_trans; eassumption | assumption].
      * destruct o as [e|]; [|cbn; repeat split; [assumption | discriminate]].
        destruct (match nth_error (procs P) p with Some pr => p_fun pr | None => false end); [|discriminate].
        eapply good_bind; [apply IE; assumption|]. intros [m1 v] _ (KM & V). cbn [fst snd] in *. cbn.
        split; [assumption|]. intros w Ew. congruence.
    + (* execs *)
      intros p os rho m l INV M K. rewrite execs_S. destruct l as [|s r]; cbn [forallb] in K.
      * cbn. repeat split; [assumption | discriminate].
      * apply andb_true_iff in K. destruct K as (K1 & K2).
        eapply good_bind; [apply IX; assumption|]. intros [m1 o] _ (KM & V). cbn [fst snd] in *.
        destruct o as [w|]; [cbn; split; assumption|].
        assert (G := IXs p os rho m1 r (inv_kept _ _ _ INV KM) (proj2 KM) K2).
        destruct (execs P glob n ((p, os) :: rho) m1 r) as [[m4 o]|c| |]; cbn in *; try assumption.
        destruct G as (G1 & G2). split; [eapply kept_trans; eassumption | assumption].
Qed.
End Safe.
