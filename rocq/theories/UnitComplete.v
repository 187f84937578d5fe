(** * What the grammar derives is accepted without an error *)
From Verif Require Import Base SynSpec SynModel SynProofs SynComplete UnitSpec UnitModel UnitProofs UnitSound.
Local Open Scope Z_scope.

Section Complete.
Variable ismod : nat -> Z -> bool.
Variables isvar isstd istproc : nat -> node -> bool.
Notation D := (UnitSpec.D ismod isvar isstd istproc).
Notation piece := (UnitSpec.piece ismod isvar isstd istproc).
Notation expr := (UnitModel.expr ismod isvar isstd istproc).
Notation stats := (UnitModel.stats ismod isvar isstd istproc).
Notation qual := (UnitModel.qual ismod).
Notation Flag := (UnitSpec.Flag ismod isvar isstd istproc).
Notation UBase := (UnitSpec.Base ismod isvar isstd istproc).
Notation Result := (UnitSpec.Result ismod isvar isstd istproc).
Notation Var := (UnitSpec.Var ismod isvar isstd istproc).
Notation Heading := (UnitSpec.Heading ismod isvar isstd istproc).
Notation Body := (UnitSpec.Body ismod isvar isstd istproc).
Notation urun := (UnitProofs.urun ismod isvar isstd istproc).
Notation urun_eq := (UnitProofs.urun_eq ismod isvar isstd istproc).

(** The symbol a list of symbols begins with. *)
Definition at0 (ts : list tok) : Z := sym (ts, []).
Lemma sym_at : forall ts e, sym (ts, e) = at0 ts.
Proof. reflexivity. Qed.
Lemma at_cons : forall k v ts, at0 ((k, v) :: ts) = k.
Proof. reflexivity. Qed.
Lemma get_cons : forall t ts e, get (t :: ts, e) = (ts, e).
Proof. reflexivity. Qed.
Lemma val_cons : forall k v ts e, val ((k, v) :: ts, e) = v.
Proof. reflexivity. Qed.
Lemma check_cons : forall k v ts e, check k ((k, v) :: ts, e) = (ts, e).
Proof. intros. unfold check. rewrite sym_at, at_cons, Z.eqb_refl. reflexivity. Qed.
Ltac consts :=
  repeat match goal with
  | |- context [Z.eqb ?a ?b] => let r := eval vm_compute in (Z.eqb a b) in match r with true => change (Z.eqb a b) with true | false => change (Z.eqb a b) with false end
  | |- context [Z.ltb ?a ?b] => let r := eval vm_compute in (Z.ltb a b) in match r with true => change (Z.ltb a b) with true | false => change (Z.ltb a b) with false end
  | |- context [Z.gtb ?a ?b] => let r := eval vm_compute in (Z.gtb a b) in match r with true => change (Z.gtb a b) with true | false => change (Z.gtb a b) with false end
  end; cbn [orb andb negb].
Ltac sy := repeat (progress (rewrite ?check_cons, ?get_cons, ?val_cons, ?sym_at, ?at_cons; consts; cbv beta iota)).
(** [ne H]: the symbol is not the one asked for. *)
Ltac no := match goal with |- context [Z.eqb (at0 ?t) ?k] => rewrite (proj2 (Z.eqb_neq (at0 t) k)) by (try lia; intuition lia) end.
Ltac yes := match goal with |- context [Z.eqb (at0 ?t) ?k] => rewrite (proj2 (Z.eqb_eq (at0 t) k)) by (try lia; intuition lia) end.
Lemma at_after : forall k, after_type k = true -> (39 <= k <= 42) \/ k = 22 \/ k = 64.
Proof. intros k H. unfold after_type in H. apply orb_true_iff in H. destruct H as [H|H]; [apply orb_true_iff in H; destruct H as [H|H]; [apply andb_true_iff in H; destruct H|]|]; lia. Qed.

Lemma def_full : forall lv ts r x e, Def lv ts r x -> at0 r <> 1 -> at0 r <> 7 -> at0 ts = 38 /\ CheckMark lv (ts, e) = (x, (r, e)).
Proof.
  intros lv ts r x e H N1 N2. destruct H; (split; [reflexivity|]); unfold CheckMark; cbv zeta; sy.
  - no. no. reflexivity.
  - subst lv. reflexivity.
  - subst lv. reflexivity.
Qed.
Lemma def_first : forall lv ts r x, Def lv ts r x -> at0 ts = 38.
Proof. intros lv ts r x H. destruct H; reflexivity. Qed.
Lemma flag_full : forall ts r f e, Flag ts r f -> at0 r <> 31 -> CheckSysFlag ismod isvar isstd istproc (ts, e) = Ok (f, (r, e)).
Proof.
  intros ts r f e H N. destruct H as [ts|v w ts rest x H]; unfold UnitModel.CheckSysFlag; sy; [no; reflexivity|].
  rewrite (expr_full _ _ _ _ _ _ _ _ H) by (rewrite sym_at, at_cons; unfold fExp, fFac; lia). cbn [bind]. sy. reflexivity.
Qed.
Lemma flag_first : forall ts r f, Flag ts r f -> at0 ts = 31 \/ ts = r.
Proof. intros ts r f H. destruct H; auto. Qed.
Lemma name_full : forall ts r q e, piece Qual ts r q -> name ismod (ts, e) = (q, (r, e)).
Proof. intros ts r q e H. destruct (qual_full _ _ _ _ _ _ _ e H) as (A & B). unfold UnitModel.name. rewrite A. consts. exact B. Qed.
Lemma base_full : forall ts r f e, UBase ts r f -> at0 r <> 30 -> base ismod (ts, e) = (f, (r, e)).
Proof.
  intros ts r f e H N. destruct H as [ts|v w ts rest x H]; unfold UnitModel.base; sy; [no; reflexivity|]. rewrite (name_full _ _ _ _ H). sy. reflexivity.
Qed.
Lemma base_first : forall ts r f, UBase ts r f -> at0 ts = 30 \/ ts = r.
Proof. intros ts r f H. destruct H; auto. Qed.
Lemma result_full : forall ts r f e, Result ts r f -> at0 r <> 20 -> result ismod (ts, e) = (f, (r, e)).
Proof. intros ts r f e H N. destruct H as [ts|v ts rest x H]; unfold UnitModel.result; sy; [no; reflexivity|]. rewrite (name_full _ _ _ _ H). reflexivity. Qed.
Lemma receiver_full : forall ts r x e, Receiver ts r x -> receiver (ts, e) = (x, (r, e)).
Proof. intros ts r x e H. destruct H; unfold receiver; cbv zeta; repeat (sy; cbv iota); reflexivity. Qed.
Lemma kind_full : forall ts r k e, Kind ts r k -> at0 r = 38 \/ at0 r = 30 -> kind (ts, e) = (k, (r, e)).
Proof. intros ts r k e H N. destruct H; unfold kind; sy; try reflexivity. destruct N as [N|N]; rewrite N; consts; reflexivity. Qed.
Lemma type_end_full : forall r e, after_type (at0 r) = true -> type_end r e = (r, e).
Proof. intros [|t r] e H; [reflexivity|]. cbn [type_end]. change (at0 (t :: r)) with (fst t) in H. rewrite H. reflexivity. Qed.

(** ** What the parts begin with *)
Definition firstu (u : unit_) (ts rest : list tok) : Prop :=
  match u with
  | UNames _ | UIdents => at0 ts = 38
  | UFields _ => at0 ts = 38 \/ at0 ts = 39 \/ ts = rest
  | UParams _ => at0 ts = 38 \/ at0 ts = 60
  | USections _ => 58 <= at0 ts <= 60 \/ ts = rest
  | UConsts _ | UTypes _ | UVars _ => at0 ts = 38 \/ ts = rest
  | UProcs _ => at0 ts = 61 \/ ts = rest
  | UCodes => at0 ts = 35 \/ at0 ts = 19 \/ ts = rest
  | UImports => at0 ts = 38
  | _ => True
  end.
Lemma firstsu : forall u ts rest x, D u ts rest x -> firstu u ts rest.
Proof.
  assert (N : forall u ts rest x, D u ts rest x -> match u with UNames _ | UIdents => at0 ts = 38 | _ => True end).
  { intros u ts rest x H. destruct H; try exact I; try reflexivity; eapply def_first; eassumption. }
  intros u ts rest x H. destruct H; cbn [firstu]; rewrite ?at_cons; auto; try lia; try (eapply def_first; eassumption); try (left; eapply def_first; eassumption).
  - left. exact (N _ _ _ _ H).
  - left. exact (N _ _ _ _ H).
  - destruct H; [left|right; reflexivity]. exact (N _ _ _ _ H0).
  - destruct H; [left|right; reflexivity]. exact (N _ _ _ _ H0).
  - left. exact (N _ _ _ _ H).
  - destruct H; reflexivity.
  - destruct H; reflexivity.
Qed.

(** ** What may come next *)
Definition fol (u : unit_) (k : Z) : Prop :=
  match u with
  | UType _ | UArray _ => after_type k = true
  | UNames _ | UIdents => k = 20
  | UFields _ => k = 41
  | UParams _ => k = 22
  | USig _ => k <> 20
  | USections _ => k = 61 \/ k = 57 \/ k = 41
  | UConsts _ | UTypes _ | UVars _ => k <> 38
  | UProcs _ => k = 57 \/ k = 41
  | UProc _ | UCodes | UImports => k = 39
  | UBlock _ => True
  end.
Definition okD (u : unit_) (ts rest : list tok) (x : tree) : Prop := fol u (at0 rest) -> forall e, urun u (ts, e) = Ok (x, (rest, e)).
Definition okH (lv : nat) (ts rest : list tok) (g : option tree) : Prop :=
  (at0 ts = 30 \/ ts = rest) /\ (at0 rest <> 20 -> at0 rest <> 30 -> forall e, heading urun lv (ts, e) = Ok (g, (rest, e))).
Definition okB (k : pkind) (bound : bool) (lv : nat) (x : Z) (ts rest : list tok) (b : option tree) : Prop :=
  (In (at0 ts) [39; 37; 35; 19] \/ ts = rest) /\
  (at0 rest = 39 -> forall e,
   (if is_minus k && negb bound then let* (c, s4) := code urun (ts, e) in Ok (Some c, s4)
    else if is_forward k then Ok (None, (ts, e)) else body urun lv x (ts, e)) = Ok (b, (rest, e))).
Definition okV (b : bool) (ts rest : list tok) : Prop := at0 rest = 38 -> forall e, (sym (ts, e) =? 60) = b /\ (if sym (ts, e) =? 60 then get (ts, e) else (ts, e)) = (rest, e).

Scheme D_rec := Minimality for UnitSpec.D Sort Prop with V_rec := Minimality for UnitSpec.Var Sort Prop
  with H_rec := Minimality for UnitSpec.Heading Sort Prop with B_rec := Minimality for UnitSpec.Body Sort Prop.

(** ** Declarations after a section *)
Definition tail4 (lv : nat) (l : list tree) (s : st) : res (tree * st) :=
  if (sym s <? 58) || (sym s >? 60) then Ok (TList l, s) else let* (k, s4) := urun (USections lv) s in Ok (TList (l ++ list_t k), s4).
Definition tail3 (lv : nat) (l : list tree) (s : st) : res (tree * st) := let* (l3, s3) := section urun 60 (UVars lv) s in tail4 lv (l ++ l3) s3.
Definition tail2 (lv : nat) (l : list tree) (s : st) : res (tree * st) := let* (l2, s2) := section urun 59 (UTypes lv) s in tail3 lv (l ++ l2) s2.
Lemma sections_eq : forall lv s, urun (USections lv) s = (let* (l1, s1) := section urun 58 (UConsts lv) s in tail2 lv l1 s1).
Proof.
  intros lv s. rewrite urun_eq. cbn [UnitModel.ustep]. unfold sections. destruct (section urun 58 (UConsts lv) s) as [[l1 s1]| | |]; try reflexivity. cbn [bind]. unfold tail2, tail3, tail4.
  destruct (section urun 59 (UTypes lv) s1) as [[l2 s2]| | |]; try reflexivity. cbn [bind]. destruct (section urun 60 (UVars lv) s2) as [[l3 s3]| | |]; try reflexivity. cbn [bind].
  rewrite <- !app_assoc. destruct ((sym s3 <? 58) || (sym s3 >? 60)); [reflexivity|]. destruct (urun (USections lv) s3) as [[k s4]| | |]; try reflexivity. cbn [bind]. rewrite <- ?app_assoc. reflexivity.
Qed.
Lemma shift4 : forall lv a l s k s', tail4 lv l s = Ok (TList k, s') -> tail4 lv (a ++ l) s = Ok (TList (a ++ k), s').
Proof.
  intros lv a l s k s'. unfold tail4. destruct ((sym s <? 58) || (sym s >? 60)); [congruence|]. destruct (urun (USections lv) s) as [[t s4]| | |]; cbn [bind]; intros H; try discriminate H.
  rewrite <- app_assoc. congruence.
Qed.
Lemma shift3 : forall lv a l s k s', tail3 lv l s = Ok (TList k, s') -> tail3 lv (a ++ l) s = Ok (TList (a ++ k), s').
Proof. intros lv a l s k s'. unfold tail3. destruct (section urun 60 (UVars lv) s) as [[t s4]| | |]; cbn [bind]; intros H; try discriminate H. rewrite <- app_assoc. apply shift4. exact H. Qed.
Lemma shift2 : forall lv a l s k s', tail2 lv l s = Ok (TList k, s') -> tail2 lv (a ++ l) s = Ok (TList (a ++ k), s').
Proof. intros lv a l s k s'. unfold tail2. destruct (section urun 59 (UTypes lv) s) as [[t s4]| | |]; cbn [bind]; intros H; try discriminate H. rewrite <- app_assoc. apply shift3. exact H. Qed.
Lemma no_section : forall k u s, sym s <> k -> section urun k u s = Ok ([], s).
Proof. intros k u s H. unfold section. rewrite (proj2 (Z.eqb_neq _ _) H). reflexivity. Qed.
Lemma after4 : forall lv s k s' l, urun (USections lv) s = Ok (TList k, s') -> tail4 lv l s = Ok (TList (l ++ k), s').
Proof.
  intros lv s k s' l H. pose proof H as H0. unfold tail4. destruct ((sym s <? 58) || (sym s >? 60)) eqn:C1; [|rewrite H; reflexivity].
  rewrite sections_eq in H. assert (S : sym s < 58 \/ 60 < sym s) by (apply orb_true_iff in C1; rewrite Z.gtb_ltb in C1; rewrite !Z.ltb_lt in C1; exact C1).
  rewrite no_section in H by lia. cbn [bind] in H. unfold tail2 in H. rewrite no_section in H by lia. cbn [bind] in H. unfold tail3 in H. rewrite no_section in H by lia. cbn [bind app] in H. unfold tail4 in H. rewrite C1 in H.
  injection H as <- <-. rewrite app_nil_r. reflexivity.
Qed.
Lemma after3 : forall lv s k s' l, urun (USections lv) s = Ok (TList k, s') -> tail3 lv l s = Ok (TList (l ++ k), s').
Proof.
  intros lv s k s' l H. destruct (Z.eq_dec (sym s) 60) as [E|E].
  - rewrite sections_eq in H. rewrite no_section in H by lia. cbn [bind] in H. unfold tail2 in H. rewrite no_section in H by lia. cbn [bind app] in H. rewrite <- (app_nil_r l) at 1. apply shift3. exact H.
  - unfold tail3. rewrite no_section by assumption. cbn [bind]. rewrite app_nil_r. apply after4. exact H.
Qed.
Lemma after2 : forall lv s k s' l, urun (USections lv) s = Ok (TList k, s') -> tail2 lv l s = Ok (TList (l ++ k), s').
Proof.
  intros lv s k s' l H. destruct (Z.eq_dec (sym s) 59) as [E|E].
  - rewrite sections_eq in H. rewrite no_section in H by lia. cbn [bind] in H. rewrite <- (app_nil_r l) at 1. apply shift2. exact H.
  - unfold tail2. rewrite no_section by assumption. cbn [bind]. rewrite app_nil_r. apply after3. exact H.
Qed.

Ltac go := unfold okD; intros; match goal with |- urun ?u (_, ?e) = _ => rewrite urun_eq; cbn [UnitModel.ustep]; cbn [fol] in * end.
Ltac exp H := rewrite (expr_full _ _ _ _ _ _ _ _ H) by (rewrite sym_at, at_cons; unfold fExp, fFac; lia); cbn [bind].
Ltac use H := rewrite H by (cbn [fol]; rewrite ?at_cons; first [assumption | reflexivity | lia | intuition lia | match goal with K : at0 _ = _ |- _ => rewrite K; reflexivity end]); cbn [bind list_t list_n list_i list_c list_m app].
Ltac flag H := rewrite (flag_full _ _ _ _ H) by (rewrite ?at_cons; lia); cbn [bind].
Lemma type_start : forall ts e, 30 <= at0 ts -> resync 30 12 (ts, e) = (ts, e).
Proof. intros ts e H. unfold resync. rewrite sym_at. rewrite (proj2 (Z.ltb_ge _ _) H). reflexivity. Qed.
Lemma exp_first : forall ts r x, piece Expr ts r x -> at0 ts <> 31 /\ at0 ts <> 25.
Proof. intros ts r x H. pose proof (expr_first _ _ _ _ _ _ _ [] H) as F. rewrite sym_at in F. unfold fst_exp, fst_fac in F. lia. Qed.

Lemma ucomplete : forall u ts rest x, D u ts rest x -> okD u ts rest x.
Proof.
  apply (D_rec ismod isvar isstd istproc okD okV okH okB).
  - (* t_name *) go. destruct (qual_full _ _ _ _ _ _ _ e H) as (A & B). rewrite sym_at in A. unfold type. cbv zeta. rewrite type_start by lia. rewrite sym_at, A. consts. rewrite B. cbn [bind]. rewrite type_end_full by assumption. reflexivity.
  - (* t_array *) go. unfold type. cbv zeta. rewrite type_start by (rewrite at_cons; lia). sy. use H0. cbn [fst snd]. rewrite type_end_full by assumption. reflexivity.
  - (* t_record *) go. unfold type. cbv zeta. rewrite type_start by (rewrite at_cons; lia). sy. unfold record_type.
    pose proof (firstsu _ _ _ _ H1) as F1. cbn [firstu] in F1. assert (F2 : at0 t2 = 38 \/ at0 t2 = 39 \/ at0 t2 = 41) by (destruct F1 as [F1|[F1|F1]]; [auto|auto|subst t2; auto]).
    pose proof (base_first _ _ _ H0) as F3. rewrite (flag_full _ _ _ _ H) by (destruct F3 as [F3|F3]; [lia | subst t1; lia]). cbn [bind]. rewrite (base_full _ _ _ _ H0) by lia. use H2. sy. cbn [fst snd].
    rewrite type_end_full by assumption. reflexivity.
  - (* t_pointer *) go. unfold type. cbv zeta. rewrite type_start by (rewrite at_cons; lia). sy. unfold pointer_type. flag H. cbv zeta. sy. destruct (at0 t1 =? 38) eqn:C1.
    + apply Z.eqb_eq in C1. inversion H0; subst; try (rewrite at_cons in C1; discriminate C1). match goal with Q : piece Qual _ _ _ |- _ => destruct (qual_full _ _ _ _ _ _ _ e Q) as (A & B) end. rewrite B. cbn [bind fst snd]. rewrite type_end_full by assumption. reflexivity.
    + use H1. cbn [fst snd]. rewrite type_end_full by assumption. reflexivity.
  - (* t_proc0 *) go. unfold type. cbv zeta. rewrite type_start by (rewrite at_cons; lia). sy. pose proof (at_after _ H0). flag H. sy. no. cbn [bind fst snd]. rewrite type_end_full by assumption. reflexivity.
  - (* t_proc *) go. unfold type. cbv zeta. rewrite type_start by (rewrite at_cons; lia). sy. pose proof (at_after _ H2). flag H. sy. use H1. cbn [fst snd]. rewrite type_end_full by assumption. reflexivity.
  - (* r_open *) go. unfold array_type. flag H. sy. use H1. reflexivity.
  - (* r_fixed *) go. unfold array_type. destruct (exp_first _ _ _ H0). flag H. sy. no. exp H0. sy. use H2. reflexivity.
  - (* r_more *) go. unfold array_type. destruct (exp_first _ _ _ H0). flag H. sy. no. exp H0. sy. cbv zeta. sy.
    assert (T : at0 t2 <> 25). { intros T. destruct t2 as [|[a b] t3]; [discriminate T|]. rewrite at_cons in T. subst a. exact (H1 b t3 eq_refl). } no. use H3. reflexivity.
  - (* n_one *) go. unfold names. destruct (def_full _ _ _ _ e H) as (A & B); [lia|lia|]. rewrite sym_at, A. consts. rewrite B. rewrite sym_at. no. no. reflexivity.
  - (* n_more *) go. unfold names. destruct (def_full _ _ _ _ e H) as (A & B); [rewrite at_cons; lia|rewrite at_cons; lia|]. rewrite sym_at, A. consts. rewrite B. sy. use H1. reflexivity.
  - (* i_one *) go. unfold idents. sy. no. no. no. reflexivity.
  - (* i_more *) go. unfold idents. sy. use H0. reflexivity.
  - (* f_end *) go. unfold fields. sy. no. cbn [bind]. sy. no. no. reflexivity.
  - (* f_semi *) go. unfold fields. sy. cbn [bind]. sy. use H0. destruct (shape_f _ _ _ _ _ _ _ _ H) as (l & ->). reflexivity.
  - (* f_last *) go. unfold fields. pose proof (firstsu _ _ _ _ H) as F1. cbn [firstu] in F1. sy. yes. use H0. sy. use H2. sy. no. no. reflexivity.
  - (* f_more *) go. unfold fields. pose proof (firstsu _ _ _ _ H) as F1. cbn [firstu] in F1. sy. yes. use H0. sy. use H2. sy. use H4. reflexivity.
  - (* s_none *) go. unfold formal_parameters. sy. cbn [bind]. sy. rewrite (result_full _ _ _ _ H) by assumption. reflexivity.
  - (* s_some *) go. unfold formal_parameters. pose proof (firstsu _ _ _ _ H) as F1. cbn [firstu] in F1. sy. destruct F1 as [F1|F1]; rewrite F1; consts; use H0; sy; rewrite (result_full _ _ _ _ H1) by assumption; reflexivity.
  - (* p_last *) go. unfold params. cbv zeta. pose proof (firstsu _ _ _ _ H1) as F1. cbn [firstu] in F1. destruct (H0 F1 e) as (V1 & V2). rewrite V2, V1. use H2. sy. use H4. sy. no. no. reflexivity.
  - (* p_more *) go. unfold params. cbv zeta. pose proof (firstsu _ _ _ _ H1) as F1. cbn [firstu] in F1. destruct (H0 F1 e) as (V1 & V2). rewrite V2, V1. use H2. sy. use H4. sy. use H6. reflexivity.
  - (* d_none *) unfold okD. intros. cbn [fol] in *. rewrite sections_eq. rewrite no_section by (rewrite sym_at; lia). cbn [bind]. unfold tail2. rewrite no_section by (rewrite sym_at; lia). cbn [bind]. unfold tail3. rewrite no_section by (rewrite sym_at; lia).
    cbn [bind app]. unfold tail4. rewrite sym_at. destruct H as [-> |[-> | ->]]; reflexivity.
  - (* d_const *) unfold okD. intros. cbn [fol] in *. rewrite sections_eq. unfold section. sy. pose proof (firstsu _ _ _ _ H1) as F1. cbn [firstu] in F1.
    rewrite H0 by (destruct F1 as [F1|F1]; [lia | subst t1; lia]). cbn [bind list_t]. apply after2. apply H2. assumption.
  - (* d_type *) unfold okD. intros. cbn [fol] in *. rewrite sections_eq. rewrite no_section by (rewrite sym_at, at_cons; lia). cbn [bind]. unfold tail2, section. sy. pose proof (firstsu _ _ _ _ H1) as F1. cbn [firstu] in F1.
    rewrite H0 by (destruct F1 as [F1|F1]; [lia | subst t1; lia]). cbn [bind list_t app]. apply after3. apply H2. assumption.
  - (* d_var *) unfold okD. intros. cbn [fol] in *. rewrite sections_eq. rewrite no_section by (rewrite sym_at, at_cons; lia). cbn [bind]. unfold tail2. rewrite no_section by (rewrite sym_at, at_cons; lia). cbn [bind]. unfold tail3, section. sy.
    pose proof (firstsu _ _ _ _ H1) as F1. cbn [firstu] in F1. rewrite H0 by (destruct F1 as [F1|F1]; [lia | subst t1; lia]). cbn [bind list_t app]. apply after4. apply H2. assumption.
  - (* c_none *) go. unfold consts. sy. no. reflexivity.
  - (* c_more *) go. unfold UnitModel.consts. destruct (def_full _ _ _ _ e0 H) as (A & B); [rewrite at_cons; lia|rewrite at_cons; lia|]. rewrite sym_at, A. consts. rewrite B. sy. exp H0. sy. use H2. reflexivity.
  - (* y_none *) go. unfold types. sy. no. reflexivity.
  - (* y_more *) go. unfold types. destruct (def_full _ _ _ _ e H) as (A & B); [rewrite at_cons; lia|rewrite at_cons; lia|]. rewrite sym_at, A. consts. rewrite B. sy. use H1. sy. use H3. reflexivity.
  - (* v_none *) go. unfold vars. sy. no. reflexivity.
  - (* v_more *) go. unfold vars. pose proof (firstsu _ _ _ _ H) as F1. cbn [firstu] in F1. sy. yes. use H0. sy. use H2. sy. use H4. reflexivity.
  - (* ps_none *) go. unfold procs. sy. no. reflexivity.
  - (* ps_more *) go. unfold procs. sy. use H0. sy. use H2. reflexivity.
  - (* p_plain *) go. unfold procedure. destruct H5 as (F5 & P5). destruct H3 as (F3 & P3).
    assert (G3 : In (at0 t3) [39; 37; 35; 19]) by (destruct F5 as [F5|F5]; [exact F5 | subst t3; rewrite H6; cbn; auto]).
    assert (N3 : at0 t3 <> 1 /\ at0 t3 <> 7 /\ at0 t3 <> 20 /\ at0 t3 <> 30) by (cbn in G3; lia).
    assert (N2 : at0 t2 <> 1 /\ at0 t2 <> 7) by (destruct F3 as [F3|F3]; [lia | subst t2; lia]).
    destruct (def_full _ _ _ _ e H1) as (A & B); [lia|lia|]. rewrite (kind_full _ _ _ _ H) by auto. rewrite sym_at, A. consts. rewrite B. cbv zeta.
    match goal with |- context [heading _ _ (if ?c then _ else _)] => assert (CD : c = false) end.
    { destruct lv as [|lv]; [apply andb_false_r|]. destruct H1 as [? ?|? ? ? Z|? ? ? Z]; try discriminate Z. cbn [snd]. rewrite orb_false_r. destruct k; try reflexivity; exfalso; discriminate (H0 ltac:(auto)). }
    rewrite CD. rewrite P3 by lia. cbn [bind]. specialize (P5 H6 e). cbn [negb] in P5. rewrite andb_true_r in P5. match goal with |- bind ?c _ = _ => replace c with (Ok (b, (rest, e)) : res (option tree * st)) by (symmetry; exact P5) end. reflexivity.
  - (* p_bound *) go. unfold procedure. destruct H5 as (F5 & P5). destruct H3 as (F3 & P3).
    assert (G3 : In (at0 t3) [39; 37; 35; 19]) by (destruct F5 as [F5|F5]; [exact F5 | subst t3; rewrite H6; cbn; auto]).
    assert (N3 : at0 t3 <> 1 /\ at0 t3 <> 7 /\ at0 t3 <> 20 /\ at0 t3 <> 30) by (cbn in G3; lia).
    assert (N2 : at0 t2 <> 1 /\ at0 t2 <> 7) by (destruct F3 as [F3|F3]; [lia | subst t2; lia]).
    destruct (def_full _ _ _ _ e H1) as (A & B); [lia|lia|]. rewrite (kind_full _ _ _ _ H) by (right; reflexivity). sy. unfold bound. cbv zeta. change (0 <? 0)%nat with false. cbv iota. sy. rewrite (receiver_full _ _ _ _ H0). rewrite sym_at, A. consts. rewrite B.
    rewrite P3 by lia. cbn [bind]. specialize (P5 H6 e). cbn [negb] in P5. rewrite andb_false_r in P5. match goal with |- bind ?c _ = _ => replace c with (Ok (b, (rest, e)) : res (option tree * st)) by (symmetry; exact P5) end. reflexivity.
  - (* b_plain *) go. unfold block. pose proof (firstsu _ _ _ _ H1) as F1. cbn [firstu] in F1. rewrite H0 by (destruct F1 as [F1|F1]; [cbn [fol]; lia | subst t1; rewrite at_cons; cbn [fol]; lia]). cbn [bind]. use H2. sy. cbn [bind]. sy. reflexivity.
  - (* b_begin *) go. unfold block. pose proof (firstsu _ _ _ _ H1) as F1. cbn [firstu] in F1. rewrite H0 by (destruct F1 as [F1|F1]; [cbn [fol]; lia | subst t1; rewrite at_cons; cbn [fol]; lia]). cbn [bind]. use H2. sy.
    rewrite (stats_full _ _ _ _ _ _ _ _ H3) by (rewrite sym_at, at_cons; unfold fSeq; lia). cbn [bind]. sy. reflexivity.
  - (* k_none *) go. unfold codes. sy. no. sy. no. no. reflexivity.
  - (* k_one *) go. unfold codes. sy. no. no. reflexivity.
  - (* k_comma *) go. unfold codes. sy. use H0. destruct (shape_c _ _ _ _ _ _ _ H) as (l' & E). inversion E. reflexivity.
  - (* k_more *) go. unfold codes. sy. use H0. reflexivity.
  - (* m_one *) go. unfold imports. cbv zeta. destruct H; sy; repeat (no; sy); reflexivity.
  - (* m_more *) go. unfold imports. cbv zeta. inversion H; subst; sy; cbv iota; sy; use H1; reflexivity.
  - (* var_no *) intros ts H e. rewrite sym_at, H. auto.
  - intros v ts H e. sy. auto.
  - (* h_none *) intros lv ts. split; [auto|]. intros N1 N2 e. unfold heading. sy. no. reflexivity.
  - intros lv v ts rest s H IH. split; [left; reflexivity|]. intros N1 N2 e. unfold heading. sy. use IH. reflexivity.
  - (* body *) intros bound lv x ts. split; [auto|]. intros _ e. reflexivity.
  - intros lv x v rest. split; [left; cbn; auto|]. intros _ e. cbn [is_minus negb andb]. unfold code. sy. reflexivity.
  - intros lv x ts rest l H IH. pose proof (firstsu _ _ _ _ H) as F1. cbn [firstu] in F1. split; [destruct F1 as [F1|[F1|F1]]; [left; rewrite F1; cbn; auto|left; rewrite F1; cbn; auto|right; exact F1]|].
    intros N e. cbn [is_minus negb andb]. unfold code. sy. assert (at0 ts <> 37) by (destruct F1 as [F1|[F1|F1]]; [lia|lia|subst ts; lia]). no. use IH. reflexivity.
  - intros k bound lv x v ts rest b K1 K2 H IH. split; [left; cbn; auto|]. intros N e. assert (M : is_minus k && negb bound = false) by (destruct k; try reflexivity; rewrite (K2 eq_refl); reflexivity). rewrite M.
    assert (M2 : is_forward k = false) by (destruct k; try reflexivity; contradiction). rewrite M2. unfold body. sy. use IH. sy. rewrite Z.eqb_refl. sy. reflexivity.
Qed.

Lemma module_rest_complete : forall x l ts u rest b, D (UBlock 0) ts ((38, x) :: (18, u) :: rest) b ->
  module_rest ismod isvar isstd istproc x l (ts, []) = Ok (TModule x l b, ((18, u) :: rest, [])).
Proof.
  intros x l ts u rest b H. unfold module_rest. cbn [snd]. rewrite uparse_run by (unfold ufuel, len; cbn [fst urank]; lia). rewrite (ucomplete _ _ _ _ H) by exact I. cbn [bind]. sy. rewrite Z.eqb_refl. sy. reflexivity.
Qed.
Lemma module_complete : forall ts t rest, Module_ ismod isvar isstd istproc ts rest t -> module ismod isvar isstd istproc ts = Ok (t, (rest, [])).
Proof.
  intros ts t rest H. destruct H as [v x w ts u rest b H|v x w i ts s t1 u rest l b H1 H2]; unfold module; cbv zeta; sy; cbv iota; sy; cbv iota.
  - assert (N : at0 ts <> 62).
    { inversion H; subst; match goal with K1 : D (USections _) _ _ _, K2 : D (UProcs _) _ _ _ |- _ => pose proof (firstsu _ _ _ _ K1) as F1; pose proof (firstsu _ _ _ _ K2) as F2; cbn [firstu] in F1, F2 end;
      (destruct F1 as [F1|F1]; [lia|]; subst; destruct F2 as [F2|F2]; [lia|subst; rewrite at_cons; lia]). }
    sy. no. apply module_rest_complete. exact H.
  - sy. rewrite uparse_run by (unfold ufuel, len; cbn [fst urank]; lia). rewrite (ucomplete _ _ _ _ H1) by reflexivity. cbn [bind list_m]. sy. apply module_rest_complete. exact H2.
Qed.
End Complete.
