(** Names resolve to the innermost visible declaration (C44). *)
From Verif Require Import Base CStrModel OpsProps ScopeModel.

(** Specification: a scope is the list of its declarations. *)
Definition decls := list (list Z * Z).
Definition lookup1 (name : list Z) (d : decls) : option Z :=
  match find (fun p => if list_eq_dec Z.eq_dec (fst p) name then true else false) d with Some p => Some (snd p) | None => None end.
Fixpoint lookup (name : list Z) (ds : list decls) : option Z :=
  match ds with
  | [] => None
  | d :: outer => match lookup1 name d with Some o => Some o | None => lookup name outer end
  end.
Inductive cmd := COpen | CClose | CDeclare (name : list Z) (obj : Z) | CFor (obj : Z).
(** Identifiers start with a letter or underscore (OPS.Mod Identifier), so with a character above @. *)
Definition ident (name : list Z) : Prop := exists c r, name = c :: r /\ 64 < c.
Definition cmd_ok (c : cmd) : Prop := match c with CDeclare n _ => ident n | _ => True end.
Definition step_spec (c : cmd) (ds : list decls) : list decls :=
  match c, ds with
  | COpen, _ => [] :: ds
  | CClose, _ => tl ds
  | CDeclare n o, d :: outer => ((n, o) :: d) :: outer
  | _, _ => ds
  end.
Definition step_model (c : cmd) (s : state) : state :=
  match c with COpen => OpenScope s | CClose => CloseScope s | CDeclare n o => Insert n n o s | CFor o => InsertFor o s end.
Definition run_spec (h : list cmd) (ds : list decls) : list decls := fold_left (fun ds c => step_spec c ds) h ds.
Definition run_model (h : list cmd) (s : state) : state := fold_left (fun s c => step_model c s) h s.
Definition start : state := mkstate [] 0.

(** * The order *)
Lemma ncmp_eq : forall x y, ncmp x y = Eq <-> x = y.
Proof.
  induction x as [| a x IH]; intros [| b y]; cbn [ncmp]; split; intros H; try congruence; try discriminate.
  - destruct (Z.compare_spec a b); try discriminate. subst. f_equal. apply IH, H.
  - injection H as -> ->. rewrite Z.compare_refl. apply IH. reflexivity.
Qed.
Lemma ncmp_anti : forall x y, ncmp y x = CompOpp (ncmp x y).
Proof.
  induction x as [| a x IH]; intros [| b y]; cbn [ncmp CompOpp]; try reflexivity. rewrite (Z.compare_antisym a b). destruct (a ?= b); cbn [CompOpp]; auto.
Qed.
Lemma ncmp_trans : forall x y z, ncmp x y = Lt -> ncmp y z = Lt -> ncmp x z = Lt.
Proof.
  induction x as [| a x IH]; intros [| b y] [| c z]; cbn [ncmp]; intros H1 H2; try congruence; try discriminate.
  destruct (Z.compare_spec a b), (Z.compare_spec b c); try discriminate; subst.
  - rewrite Z.compare_refl. eapply IH; eassumption.
  - destruct (Z.compare_spec b c); try lia. reflexivity.
  - destruct (Z.compare_spec a c); try lia. reflexivity.
  - destruct (Z.compare_spec a c); try lia. reflexivity.
Qed.
(** The order is the one of the compiled comparison of character arrays. *)
Theorem C44_order : forall x y, Forall (fun c => 0 < c < 256) x -> Forall (fun c => 0 < c < 256) y ->
  exists v, str_cmp (x ++ [0]) (y ++ [0]) = Ok v /\ ncmp x y = (v ?= 0).
Proof.
  induction x as [| a x IH]; intros [| b y] HX HY; cbn [app str_cmp ncmp].
  - exists 0. split; reflexivity.
  - exists (- b). inversion HY; subst. split; [reflexivity |]. symmetry. apply Z.compare_lt_iff. lia.
  - inversion HX; subst. replace (a =? 0) with false by lia. exists (a - 0). split; [reflexivity |]. symmetry. apply Z.compare_gt_iff. lia.
  - inversion HX; subst. inversion HY; subst. replace (a =? 0) with false by lia. destruct (a =? b) eqn:E.
    + apply Z.eqb_eq in E as <-. rewrite Z.compare_refl. apply IH; assumption.
    + exists (a - b). split; [reflexivity |]. apply Z.eqb_neq in E. destruct (Z.compare_spec a b); [congruence | |]; symmetry; [apply Z.compare_lt_iff | apply Z.compare_gt_iff]; lia.
Qed.

(** * Trees *)
Fixpoint items (t : tree) : list (list Z * Z) :=
  match t with Nil => [] | Node n o l r => items l ++ (n, o) :: items r end.
(** Sorted by name, except that hidden FOR variables may share their name. *)
Definition le (a b : list Z) : Prop := ncmp a b = Lt \/ a = at_for /\ b = at_for.
Fixpoint ordered (t : tree) : Prop :=
  match t with
  | Nil => True
  | Node n o l r => ordered l /\ ordered r /\ Forall (fun p => le (fst p) n) (items l) /\ Forall (fun p => le n (fst p)) (items r)
  end.
Definition names (t : tree) : list (list Z) := map fst (items t).
Lemma ident_for : forall n, ident n -> n <> at_for.
Proof. intros n (c & r & -> & H) E. unfold at_for in E. injection E as -> _. lia. Qed.
Lemma ident_at : forall n, ident n -> ncmp at_at n = Lt.
Proof. intros n (c & r & -> & H). unfold at_at. cbn [ncmp]. destruct (Z.compare_spec 64 c); [lia | reflexivity | lia]. Qed.
Definition good (n : list Z) : Prop := ident n \/ n = at_for.
Lemma le_lt : forall a b, le a b -> ident a \/ ident b -> ncmp a b = Lt.
Proof. intros a b [H | [-> ->]] [I | I]; try exact H; exfalso; apply (ident_for _ I); reflexivity. Qed.

Lemma find_none_iff : forall name t, ident name -> ordered t -> find_tree name t = None <-> ~ In name (names t).
Proof.
  intros name t I. induction t as [| n o l IHl r IHr]; intros O; cbn [find_tree]; [unfold names; cbn; tauto |].
  destruct O as (Ol & Or & Fl & Fr). unfold names in *. cbn [items]. rewrite map_app. cbn [map fst]. rewrite in_app_iff. cbn [In].
  destruct (ncmp name n) eqn:E.
  - apply ncmp_eq in E. split; [discriminate |]. intros H. exfalso. apply H. right. left. congruence.
  - rewrite (IHl Ol). split; [| tauto]. intros H [K | [K | K]]; [tauto | rewrite K in E; rewrite (proj2 (ncmp_eq name name) eq_refl) in E; discriminate |].
    apply in_map_iff in K as ((k & v) & K & J). cbn in K. subst k. pose proof (proj1 (Forall_forall _ _) Fr _ J) as L. cbn in L. apply le_lt in L; [| right; exact I]. rewrite ncmp_anti, L in E. discriminate.
  - rewrite (IHr Or). split; [| tauto]. intros H [K | [K | K]]; [| rewrite K in E; rewrite (proj2 (ncmp_eq name name) eq_refl) in E; discriminate | tauto].
    apply in_map_iff in K as ((k & v) & K & J). cbn in K. subst k. pose proof (proj1 (Forall_forall _ _) Fl _ J) as L. cbn in L. apply le_lt in L; [| left; exact I]. congruence.
Qed.
Lemma find_some_in : forall name t o, find_tree name t = Some o -> In (name, o) (items t).
Proof.
  intros name t. induction t as [| n o l IHl r IHr]; intros o' H; cbn [find_tree items] in *; [discriminate |]. apply in_or_app.
  destruct (ncmp name n) eqn:E; [injection H as <-; apply ncmp_eq in E as ->; right; left; reflexivity | left; auto | right; right; auto].
Qed.
(** Inserting a name that is not in the tree (or a FOR variable) adds exactly that item and keeps the order. *)
Lemma insert_new : forall name stored obj t f, ident name /\ stored = name /\ ~ In name (names t) \/ name = at_at /\ stored = at_for -> Forall good (names t) -> ordered t ->
  exists t', insert name stored obj f t = (t', false) /\ ordered t' /\ (forall p, In p (items t') <-> p = (stored, obj) \/ In p (items t)).
Proof.
  intros name stored obj t. induction t as [| n o l IHl r IHr]; intros f C G O; cbn [insert].
  - eexists. split; [reflexivity |]. split; [cbn; repeat split; constructor |]. intros p. cbn. split; [intros [H | []]; left; congruence | intros [H | []]; left; congruence].
  - destruct O as (Ol & Or & Fl & Fr). unfold names in *. cbn [items] in *. rewrite map_app in *. cbn [map fst] in *. apply Forall_app in G as [Gl G]. apply Forall_cons_iff in G as [Gn Gr].
    assert (D : ncmp name n = Lt /\ le stored n \/ ncmp name n = Gt /\ le n stored /\ ident name).
    { destruct C as [(I & -> & C) | [-> ->]].
      - rewrite in_app_iff in C. cbn [In] in C. destruct (ncmp name n) eqn:E; [apply ncmp_eq in E; exfalso; apply C; right; left; congruence | left; split; [reflexivity | left; exact E] |]. right. split; [reflexivity |]. split; [left; rewrite ncmp_anti, E; reflexivity | exact I].
      - left. destruct Gn as [I | ->]; [split; [apply ident_at, I |] | split; [reflexivity | right; split; reflexivity]]. left. destruct I as (c & w & -> & I). unfold at_for. cbn [ncmp]. destruct (Z.compare_spec 64 c); [lia | reflexivity | lia]. }
    destruct D as [(E & L) | (E & L & I)]; rewrite E.
    + destruct (IHl true) as (t' & -> & O' & IN); [destruct C as [(I & S & C) | C]; [left | right; exact C]; split; [exact I |]; split; [exact S |]; intros K; apply C, in_or_app; left; exact K | exact Gl | exact Ol |].
      eexists. split; [reflexivity |]. split.
      * cbn [ordered]. split; [exact O' |]. split; [exact Or |]. split; [| exact Fr]. apply Forall_forall. intros p K. apply IN in K as [-> | K]; [exact L | exact (proj1 (Forall_forall _ _) Fl _ K)].
      * intros p. cbn [items]. rewrite !in_app_iff, IN. tauto.
    + destruct (IHr false) as (t' & -> & O' & IN); [destruct C as [(I' & S & C) | C]; [left | right; exact C]; split; [exact I' |]; split; [exact S |]; intros K; apply C, in_or_app; right; right; exact K | exact Gr | exact Or |].
      eexists. split; [reflexivity |]. split.
      * cbn [ordered]. split; [exact Ol |]. split; [exact O' |]. split; [exact Fl |]. apply Forall_forall. intros p K. apply IN in K as [-> | K]; [exact L | exact (proj1 (Forall_forall _ _) Fr _ K)].
      * intros p. cbn [items]. rewrite !in_app_iff. cbn [In]. rewrite IN. tauto.
Qed.
(** A name that is in the tree is reported. *)
Lemma insert_dup : forall name stored obj t f, ident name -> ordered t -> In name (names t) -> snd (insert name stored obj f t) = true.
Proof.
  intros name stored obj t. induction t as [| n o l IHl r IHr]; intros f I O K; cbn [insert]; [destruct K |].
  destruct O as (Ol & Or & Fl & Fr). unfold names in *. cbn [items] in K. rewrite map_app, in_app_iff in K. cbn [map fst In] in K.
  destruct (ncmp name n) eqn:E.
  - destruct r; [destruct f; reflexivity |]. destruct (insert name stored obj f (Node name0 obj0 r1 r2)). reflexivity.
  - destruct K as [K | [K | K]]; [| rewrite K in E; rewrite (proj2 (ncmp_eq name name) eq_refl) in E; discriminate |].
    + specialize (IHl true I Ol K). destruct (insert name stored obj true l). exact IHl.
    + exfalso. apply in_map_iff in K as ((k & v) & K & J). cbn in K. subst k. pose proof (proj1 (Forall_forall _ _) Fr _ J) as L. cbn in L. apply le_lt in L; [| right; exact I]. rewrite ncmp_anti, L in E. discriminate.
  - destruct K as [K | [K | K]]; [| rewrite K in E; rewrite (proj2 (ncmp_eq name name) eq_refl) in E; discriminate |].
    + exfalso. apply in_map_iff in K as ((k & v) & K & J). cbn in K. subst k. pose proof (proj1 (Forall_forall _ _) Fl _ J) as L. cbn in L. apply le_lt in L; [| left; exact I]. congruence.
    + specialize (IHr false I Or K). destruct (insert name stored obj false r). exact IHr.
Qed.
Lemma insert_err : forall name stored obj t f, snd (insert name stored obj f t) = true \/ snd (insert name stored obj f t) = false.
Proof. intros. destruct (snd _); auto. Qed.

(** * Histories *)
(** A scope's tree holds its declarations, each name once. *)
Definition scope_rel (t : tree) (d : decls) : Prop :=
  ordered t /\ Forall good (names t) /\ NoDup (map fst d) /\ Forall (fun p => ident (fst p)) d /\ (forall n o, ident n -> In (n, o) (items t) <-> In (n, o) d).
Definition rel (s : state) (ds : list decls) : Prop := Forall2 scope_rel (scopes s) ds.

Lemma lookup1_in : forall name d o, NoDup (map fst d) -> lookup1 name d = Some o <-> In (name, o) d.
Proof.
  unfold lookup1. induction d as [| [n v] d IH]; intros o ND; cbn [find map fst snd In] in *; [split; [discriminate | tauto] |].
  apply NoDup_cons_iff in ND as [N ND]. destruct (list_eq_dec Z.eq_dec n name) as [-> | D].
  - cbn [snd]. split; [intros H; left; congruence |]. intros [H | H]; [congruence |]. exfalso. apply N. apply in_map_iff. exists (name, o). auto.
  - rewrite (IH o ND). split; [tauto |]. intros [H | H]; [congruence | exact H].
Qed.
Lemma find_scope : forall t d name, ident name -> scope_rel t d -> find_tree name t = lookup1 name d.
Proof.
  intros t d name I (O & G & ND & _ & E). destruct (find_tree name t) as [o |] eqn:F.
  - symmetry. apply lookup1_in; [exact ND |]. apply E; [exact I |]. apply find_some_in, F.
  - destruct (lookup1 name d) as [o |] eqn:L; [| reflexivity]. exfalso. apply (lookup1_in name d o ND) in L. apply E in L; [| exact I]. apply (find_none_iff name t I O) in F. apply F. apply in_map_iff. exists (name, o). auto.
Qed.
Lemma in_scope : forall t d name, ident name -> scope_rel t d -> In name (names t) <-> In name (map fst d).
Proof.
  intros t d name I (O & G & ND & _ & E). unfold names. split; intros H; apply in_map_iff in H as ((n & o) & N & K); cbn in N; subst n; apply in_map_iff; exists (name, o); (split; [reflexivity |]); apply E; assumption.
Qed.
Lemma rel_step : forall c s ds, cmd_ok c -> rel s ds -> errors (step_model c s) = errors s -> rel (step_model c s) (step_spec c ds).
Proof.
  intros c s ds OK R NE. unfold rel in *. destruct c as [| | n o | o]; cbn [step_model step_spec] in *.
  - cbn [OpenScope scopes]. constructor; [| exact R]. split; [exact I |]. split; [constructor |]. split; [constructor |]. split; [constructor |]. intros. cbn. tauto.
  - cbn [CloseScope scopes]. inversion R; subst; cbn [tl]; [constructor | assumption].
  - unfold Insert in *. destruct (scopes s) as [| t outer] eqn:ES; [inversion R; subst; rewrite ES; constructor |]. inversion R as [| ? d ? ds' SR RR]; subst. cbn [cmd_ok] in OK.
    pose proof SR as (O & G & ND & ID & E). destruct (in_dec (list_eq_dec Z.eq_dec) n (names t)) as [K | K].
    + exfalso. pose proof (insert_dup n n o t false OK O K) as X. destruct (insert n n o false t) as [t' e]. cbn in X. subst e. cbn [errors] in NE. lia.
    + destruct (insert_new n n o t false (or_introl (conj OK (conj eq_refl K))) G O) as (t' & EQ & O' & IN). rewrite EQ. cbn [scopes]. constructor; [| exact RR].
      split; [exact O' |]. split; [apply Forall_forall; intros x X; apply in_map_iff in X as ((n' & o') & N & X); cbn in N; subst n'; apply IN in X as [X | X]; [injection X as -> _; left; exact OK | apply (proj1 (Forall_forall _ _) G), in_map_iff; exists (x, o'); auto] |].
      split; [cbn [map fst]; constructor; [rewrite <- (in_scope t d n OK SR); exact K | exact ND] |]. split; [constructor; [exact OK | exact ID] |].
      intros n' o' I'. rewrite IN. cbn [In]. rewrite (E n' o' I'). split; intros [H | H]; try (right; exact H); left; congruence.
  - unfold InsertFor, Insert in *. destruct (scopes s) as [| t outer] eqn:ES; [inversion R; subst; rewrite ES; constructor |]. inversion R as [| ? d ? ds' SR RR]; subst.
    pose proof SR as (O & G & ND & ID & E). destruct (insert_new at_at at_for o t false (or_intror (conj eq_refl eq_refl)) G O) as (t' & EQ & O' & IN). rewrite EQ. cbn [scopes]. constructor; [| exact RR].
    split; [exact O' |]. split; [apply Forall_forall; intros x X; apply in_map_iff in X as ((n' & o') & N & X); cbn in N; subst n'; apply IN in X as [X | X]; [injection X as -> _; right; reflexivity | apply (proj1 (Forall_forall _ _) G), in_map_iff; exists (x, o'); auto] |].
    split; [exact ND |]. split; [exact ID |]. intros n' o' I'. rewrite IN. rewrite (E n' o' I'). split; [intros [H | H]; [injection H as -> _; exfalso; apply (ident_for _ I'); reflexivity | exact H] | right; assumption].
Qed.
Lemma errors_mono : forall c s, errors s <= errors (step_model c s).
Proof. intros c s. destruct c; cbn [step_model OpenScope CloseScope errors]; try lia; unfold InsertFor, Insert; destruct (scopes s); try lia; destruct (insert _ _ _ _ _) as [t' []]; cbn [errors]; lia. Qed.
Lemma run_mono : forall h s, errors s <= errors (run_model h s).
Proof. unfold run_model. induction h as [| c h IH]; intros s; cbn [fold_left]; [lia |]. pose proof (IH (step_model c s)). pose proof (errors_mono c s). lia. Qed.
Lemma rel_run : forall h s ds, Forall cmd_ok h -> rel s ds -> errors (run_model h s) = errors s -> rel (run_model h s) (run_spec h ds).
Proof.
  unfold run_model, run_spec. induction h as [| c h IH]; intros s ds F R E; cbn [fold_left] in *; [exact R |]. apply Forall_cons_iff in F as [C F].
  pose proof (run_mono h (step_model c s)) as M. unfold run_model in M. pose proof (errors_mono c s). apply IH; [exact F | apply rel_step; [exact C | exact R | lia] | lia].
Qed.
Lemma find_rel : forall ts ds name, ident name -> Forall2 scope_rel ts ds -> Find name ts = lookup name ds.
Proof. intros ts ds name I R. induction R as [| t d ts ds SR R IH]; cbn [Find lookup]; [reflexivity |]. rewrite (find_scope t d name I SR), IH. reflexivity. Qed.

(** After any history of declarations, scope openings and closings and FOR statements without an error, a name resolves to its declaration in the innermost scope that has one. *)
Theorem C44_find : forall h name, Forall cmd_ok h -> ident name -> errors (run_model h start) = 0 -> Find name (scopes (run_model h start)) = lookup name (run_spec h []).
Proof. intros h name F I E. apply find_rel; [exact I |]. apply (rel_run h start []); [exact F | constructor | exact E]. Qed.
(** A second declaration in the same scope is reported, and only that. *)
Theorem C44_double : forall h name obj d outer, Forall cmd_ok h -> ident name -> errors (run_model h start) = 0 -> run_spec h [] = d :: outer ->
  errors (run_model (h ++ [CDeclare name obj]) start) = if in_dec (list_eq_dec Z.eq_dec) name (map fst d) then 1 else 0.
Proof.
  intros h name obj d outer F I E S. pose proof (rel_run h start [] F ltac:(constructor) E) as R. rewrite S in R. unfold run_model. rewrite fold_left_app. cbn [fold_left step_model]. fold (run_model h start). unfold Insert, rel in *. destruct (scopes (run_model h start)) as [| t ts]; [inversion R |]. inversion R as [| ? ? ? ? SR RR]; subst.
  pose proof (in_scope t d name I SR) as IN. destruct SR as (O & G & ND & ID & EQ). destruct (in_dec (list_eq_dec Z.eq_dec) name (map fst d)) as [K | K].
  - pose proof (insert_dup name name obj t false I O (proj2 IN K)) as X. destruct (insert name name obj false t) as [t' e]. cbn in X. subst e. cbn [errors]. lia.
  - destruct (insert_new name name obj t false (or_introl (conj I (conj eq_refl (fun H => K (proj1 IN H))))) G O) as (t' & EQ' & _). rewrite EQ'. cbn [errors]. lia.
Qed.
(** A FOR statement never reports an error. *)
Theorem C44_for : forall h obj, Forall cmd_ok h -> errors (run_model h start) = 0 -> errors (run_model (h ++ [CFor obj]) start) = 0.
Proof.
  intros h obj F E. pose proof (rel_run h start [] F ltac:(constructor) E) as R. unfold run_model. rewrite fold_left_app. cbn [fold_left step_model]. fold (run_model h start). unfold InsertFor, Insert, rel in *. destruct (scopes (run_model h start)) as [| t ts]; [exact E |]. inversion R as [| ? d ? ? SR RR]; subst.
  destruct SR as (O & G & _). destruct (insert_new at_at at_for obj t false (or_intror (conj eq_refl eq_refl)) G O) as (t' & EQ' & _). rewrite EQ'. cbn [errors]. lia.
Qed.
(** Fields and methods resolve to the innermost extension level that declares them. *)
Theorem C44_field : forall ts ds name, ident name -> Forall2 scope_rel ts ds -> FindField name ts = lookup name ds.
Proof. intros ts ds name I R. induction R as [| t d ts ds SR R IH]; cbn [FindField lookup]; [reflexivity |]. rewrite (find_scope t d name I SR), IH. reflexivity. Qed.

(** The part of C44 that fails: the rejected declaration does change the scope: here a is forgotten when c is declared again, so that later uses of a are reported as undeclared. *)
Definition n_a : list Z := [97]. Definition n_c : list Z := [99]. Definition n_m : list Z := [109].
Theorem C44_double_refuted : let h := [COpen; CDeclare n_m 1; CDeclare n_c 2; CDeclare n_a 3] in
  Find n_a (scopes (run_model h start)) = Some 3 /\ Find n_a (scopes (run_model (h ++ [CDeclare n_c 4]) start)) = None /\ errors (run_model (h ++ [CDeclare n_c 4]) start) = 1.
Proof. cbv zeta. conjs; vm_compute; reflexivity. Qed.
Example C44_example : let h := [COpen; CDeclare n_m 1; CDeclare n_c 2; CFor 10; COpen; CDeclare n_c 3; CFor 11; CFor 12; CDeclare n_a 4] in
  Forall cmd_ok h /\ errors (run_model h start) = 0 /\ Find n_c (scopes (run_model h start)) = Some 3 /\ Find n_m (scopes (run_model h start)) = Some 1 /\ Find n_c (scopes (run_model (h ++ [CClose]) start)) = Some 2 /\ Find n_a (scopes (run_model (h ++ [CClose]) start)) = None.
Proof. cbv zeta. conjs; try (vm_compute; reflexivity). repeat constructor; (eexists; eexists; split; [reflexivity | lia]). Qed.

Print Assumptions C44_order.
Print Assumptions C44_find.
Print Assumptions C44_double.
Print Assumptions C44_for.
Print Assumptions C44_field.
Print Assumptions C44_double_refuted.
