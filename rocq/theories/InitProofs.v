(** Proofs about the start of modules. *)
From Coq Require Import Permutation Sorted.
From Verif Require Import Base CStrModel OpsProps ScopeModel ScopeProps InitSpec InitModel.

Lemma name_eqb_eq : forall a b, name_eqb a b = true <-> a = b.
Proof. intros a b. unfold name_eqb. destruct (list_eq_dec Z.eq_dec a b); split; intros; congruence. Qed.
Lemma name_eqb_refl : forall a, name_eqb a a = true.
Proof. intros. apply name_eqb_eq. reflexivity. Qed.
Lemma name_eqb_neq : forall a b, name_eqb a b = false <-> a <> b.
Proof. intros a b. unfold name_eqb. destruct (list_eq_dec Z.eq_dec a b); split; intros; congruence. Qed.

(** * The tree *)
Lemma before_ncmp : forall a b, ncmp a b = Lt <-> before a b.
Proof.
  induction a as [| c a IH]; intros [| d b]; cbn [ncmp before]; split; try discriminate; try tauto; intros H.
  - destruct (Z.compare_spec c d); [right; split; [assumption | apply IH, H] | left; lia | discriminate].
  - destruct H as [H | [-> H]]; [rewrite (proj2 (Z.compare_lt_iff c d) H); reflexivity |]. rewrite Z.compare_refl. apply IH, H.
Qed.
Lemma numbered_fst : forall A (ds : list (A * dec)) k, map fst (numbered k ds) = map fst ds.
Proof. induction ds as [| (a, e) r IH]; intros k; cbn; [reflexivity |]. rewrite IH. reflexivity. Qed.
Lemma scope_items : forall (ns : list (list Z * Z)) t, Forall identifier (map fst ns) -> NoDup (map fst ns) -> ordered t -> Forall identifier (names t) -> (forall n, In n (names t) -> ~ In n (map fst ns)) ->
  let t' := fold_left declare ns t in ordered t' /\ Forall identifier (names t') /\ forall p, In p (items t') <-> In p (items t) \/ In p ns.
Proof.
  induction ns as [| (n, o) r IH]; intros t I N O G D; cbn [fold_left]; [repeat split; try assumption; cbn; tauto |].
  cbn [map fst] in *. apply Forall_cons_iff in I as [I1 I2]. apply NoDup_cons_iff in N as [N1 N2].
  destruct (insert_new n n o t false) as (t1 & E & O1 & H1).
  { left. split; [exact I1 |]. split; [reflexivity |]. intros K. exact (D n K (or_introl eq_refl)). }
  { eapply Forall_impl; [| exact G]. intros a K. left. exact K. }
  { exact O. }
  unfold declare at 2 4 6. cbn [fst snd]. rewrite E. cbn [fst].
  assert (Q : forall m, In m (names t1) -> m = n \/ In m (names t)).
  { intros m K. unfold names in K. apply in_map_iff in K as (p & <- & K). apply H1 in K as [-> | K]; [left; reflexivity | right; apply in_map, K]. }
  destruct (IH t1 I2 N2 O1) as (A & B & C).
  - apply Forall_forall. intros m K. apply Q in K as [-> | K]; [exact I1 | exact (proj1 (Forall_forall _ _) G _ K)].
  - intros m K L. apply Q in K as [-> | K]; [contradiction |]. exact (D m K (or_intror L)).
  - split; [exact A |]. split; [exact B |]. intros p. rewrite C, H1. cbn [In]. intuition congruence.
Qed.
Lemma ordered_sorted : forall t, ordered t -> Forall identifier (names t) -> StronglySorted (fun p q => before (fst p) (fst q)) (items t).
Proof.
  assert (Q : forall A (R : A -> A -> Prop) l1 x l2, StronglySorted R l1 -> StronglySorted R l2 -> Forall (fun p => R p x) l1 -> Forall (R x) l2 -> (forall p q, In p l1 -> In q l2 -> R p q) -> StronglySorted R (l1 ++ x :: l2)).
  { intros A R l1 x l2. induction l1 as [| p l1 IH]; intros S1 S2 F1 F2 X; cbn [app]; [constructor; assumption |].
    apply StronglySorted_inv in S1 as [S1 S1']. apply Forall_cons_iff in F1 as [F1 F1']. constructor; [apply IH; try assumption; intros; apply X; [right |]; assumption |].
    apply Forall_app. split; [exact S1' |]. constructor; [exact F1 |]. apply Forall_forall. intros q K. apply X; [left; reflexivity | exact K]. }
  induction t as [| n o l IHl r IHr]; intros O G; cbn [items]; [constructor |].
  destruct O as (Ol & Or & Fl & Fr). unfold names in *. cbn [items] in G. rewrite map_app in G. cbn [map fst] in G. apply Forall_app in G as [Gl G]. apply Forall_cons_iff in G as [Gn Gr].
  assert (X1 : forall p, In p (items l) -> before (fst p) n). { intros p K. apply before_ncmp. apply le_lt; [exact (proj1 (Forall_forall _ _) Fl _ K) | right; exact Gn]. }
  assert (X2 : forall p, In p (items r) -> before n (fst p)). { intros p K. apply before_ncmp. apply le_lt; [exact (proj1 (Forall_forall _ _) Fr _ K) | left; exact Gn]. }
  apply Q; [apply IHl; assumption | apply IHr; assumption | apply Forall_forall; exact X1 | apply Forall_forall; exact X2 |].
  intros p q K L. apply before_ncmp. apply (ncmp_trans _ n); apply before_ncmp; auto.
Qed.
Lemma before_irrefl : forall a, ~ before a a.
Proof. intros a H. apply before_ncmp in H. rewrite (proj2 (ncmp_eq a a) eq_refl) in H. discriminate. Qed.
Lemma sorted_nodup : forall A (nm : A -> list Z) l, StronglySorted (fun p q => before (nm p) (nm q)) l -> NoDup l.
Proof.
  intros A nm. induction l as [| a r IH]; intros S; constructor; apply StronglySorted_inv in S as [S F]; [| auto].
  intros K. exact (before_irrefl _ (proj1 (Forall_forall _ _) F _ K)).
Qed.
Lemma sorted_flat : forall A B (na : A -> list Z) (nb : B -> list Z) (f : A -> list B), (forall a b, In b (f a) -> nb b = na a) -> (forall a, length (f a) <= 1)%nat -> forall l,
  StronglySorted (fun p q => before (na p) (na q)) l -> StronglySorted (fun p q => before (nb p) (nb q)) (flat_map f l).
Proof.
  intros A B na nb f H L. induction l as [| a r IH]; intros S; cbn [flat_map]; [constructor |]. apply StronglySorted_inv in S as [S F].
  pose proof (H a) as Ha. pose proof (L a) as La. destruct (f a) as [| b [| b' bs]]; cbn [app]; [apply IH, S | | cbn in La; lia].
  constructor; [apply IH, S |]. apply Forall_forall. intros c K. apply in_flat_map in K as (a' & K1 & K2). rewrite (H _ _ K2), (Ha b (or_introl eq_refl)). exact (proj1 (Forall_forall _ _) F _ K1).
Qed.
Lemma flat_numbered : forall B (f : list Z -> dec -> list B) ds pre, 
  flat_map (fun p => f (fst p) (object (pre ++ ds) (snd p))) (numbered (Z.of_nat (length pre)) ds) = flat_map (fun p => f (fst p) (snd p)) ds.
Proof.
  intros B f. induction ds as [| (a, e) r IH]; intros pre; cbn [numbered flat_map fst snd]; [reflexivity |].
  f_equal.
  - unfold object. rewrite Nat2Z.id, app_nth2, Nat.sub_diag by lia. reflexivity.
  - specialize (IH (pre ++ [(a, e)])). rewrite app_length, <- app_assoc in IH. cbn [length app] in IH. replace (Z.of_nat (length pre) + 1) with (Z.of_nat (length pre + 1)) by lia. exact IH.
Qed.
(** The walk over the tree visits the declarations in the order of their names. *)
Lemma walk : forall B (nb : B -> list Z) (f : list Z -> dec -> list B) ds, NoDup (map fst ds) -> Forall identifier (map fst ds) -> (forall n e b, In b (f n e) -> nb b = n) -> (forall n e, length (f n e) <= 1)%nat ->
  sorted_as nb (flat_map (fun p => f (fst p) (snd p)) ds) (flat_map (fun p => f (fst p) (object ds (snd p))) (items (scope ds))).
Proof.
  intros B nb f ds N I H L.
  destruct (scope_items (numbered 0 ds) Nil) as (O & G & C); [rewrite numbered_fst; exact I | rewrite numbered_fst; exact N | exact Logic.I | constructor | cbn; tauto |]. fold (scope ds) in O, G, C.
  pose proof (ordered_sorted _ O G) as S. split.
  - rewrite <- (flat_numbered B f ds []). cbn [length app]. apply Permutation_flat_map. apply NoDup_Permutation; [| exact (sorted_nodup _ fst _ S) |].
    + apply (NoDup_map_inv fst). rewrite numbered_fst. exact N.
    + intros p. rewrite C. cbn. tauto.
  - apply (sorted_flat _ _ fst nb (fun p => f (fst p) (object ds (snd p)))); [| | exact S]; intros; [eapply H; eassumption | apply L].
Qed.
Definition simps (m : modul) : list (list Z * list Z) :=
  flat_map (fun p => match is_import (object (decls m) (snd p)) with Some y => [(fst p, y)] | None => [] end) (items (scope (decls m))).
Definition scmds (m : modul) : list (list Z) :=
  flat_map (fun p => if is_command (object (decls m) (snd p)) then [fst p] else []) (items (scope (decls m))).
Lemma simps_ok : forall m, NoDup (map fst (decls m)) -> Forall identifier (map fst (decls m)) -> sorted_as fst (imports m) (simps m).
Proof.
  intros m N I. pose proof (walk _ fst (fun n e => match is_import e with Some y => [(n, y)] | None => [] end) (decls m) N I) as W.
  replace (imports m) with (flat_map (fun p => match is_import (snd p) with Some y => [(fst p, y)] | None => [] end) (decls m)).
  - apply W; intros n e; destruct (is_import e); cbn; intros; try lia; try tauto. destruct H as [<- | []]. reflexivity.
  - unfold imports. apply flat_map_ext. intros (a, e). cbn [fst snd]. destruct e; cbn [is_import]; try reflexivity. destruct (name_eqb target SYSTEM); reflexivity.
Qed.
Lemma scmds_ok : forall m, NoDup (map fst (decls m)) -> Forall identifier (map fst (decls m)) -> sorted_as (fun c => c) (commands m) (scmds m).
Proof.
  intros m N I. apply (walk _ (fun c => c) (fun n e => if is_command e then [n] else []) (decls m) N I); intros n e; destruct (is_command e); cbn; intros; try lia; try tauto. destruct H as [<- | []]. reflexivity.
Qed.
Lemma InitImports_eq : forall m, InitImports (decls m) (scope (decls m)) = map SImport (map snd (simps m)).
Proof.
  intros m. unfold simps. generalize (scope (decls m)) as t. induction t as [| n o l IHl r IHr]; cbn [InitImports items]; [reflexivity |].
  rewrite flat_map_app, !map_app. cbn [flat_map fst snd]. rewrite !map_app, IHl, IHr. destruct (is_import (object (decls m) o)); reflexivity.
Qed.
Lemma RegCmds_eq : forall m, RegCmds (decls m) (scope (decls m)) = map SRegcmd (scmds m).
Proof.
  intros m. unfold scmds. generalize (scope (decls m)) as t. induction t as [| n o l IHl r IHr]; cbn [RegCmds items]; [reflexivity |].
  rewrite flat_map_app, !map_app. cbn [flat_map fst snd]. rewrite !map_app, IHl, IHr. destruct (object (decls m) o) as [y | [|] [|] [|] [|] |]; reflexivity.
Qed.

(** * What is executed when nothing halts *)
Lemma bodies_app : forall a b, bodies (a ++ b) = bodies a ++ bodies b.
Proof. intros. apply flat_map_app. Qed.
Lemma bodies_cmds : forall x cs, bodies (map (ECmd x) cs) = [].
Proof. induction cs; cbn; auto. Qed.
Lemma bodies_in : forall x l, In x (bodies l) <-> In (EBody x) l.
Proof.
  intros x l. unfold bodies. rewrite in_flat_map. split; [intros (e & H & K); destruct e; try contradiction; destruct K as [<- | []]; exact H | intros H; exists (EBody x); split; [exact H | left; reflexivity]].
Qed.
Lemma clients_app : forall x y a b, clients x y (a ++ b) = (clients x y a + clients x y b)%nat.
Proof. intros. unfold clients. rewrite filter_app, app_length. reflexivity. Qed.
Lemma clients_cmds : forall x y z cs, clients x y (map (ECmd z) cs) = 0%nat.
Proof. intros. unfold clients. induction cs; cbn; auto. Qed.
Definition mem (x : list Z) (d : list (list Z)) : bool := existsb (name_eqb x) d.
Lemma mem_in : forall x d, mem x d = true <-> In x d.
Proof.
  intros x d. unfold mem. rewrite existsb_exists. split; [intros (y & H & E); apply name_eqb_eq in E as ->; exact H | intros H; exists x; split; [exact H | apply name_eqb_refl]].
Qed.
Lemma mem_not : forall x d, mem x d = false <-> ~ In x d.
Proof. intros x d. rewrite <- mem_in. destruct (mem x d); split; intros; congruence. Qed.

Lemma NoDup_app_iff_local : forall A (l : list A) x, NoDup l -> ~ In x l -> NoDup (l ++ [x]).
Proof. intros A l x N I. apply NoDup_rev in N. rewrite <- (rev_involutive (l ++ [x])), rev_app_distr. apply NoDup_rev. cbn. constructor; [rewrite <- in_rev; exact I | exact N]. Qed.
Lemma NoDup_disj : forall A (a b : list A) x, NoDup (a ++ b) -> In x a -> In x b -> False.
Proof. intros A a b x N. induction a as [| k a IH]; intros I J; [destruct I |]. cbn [app] in N. apply NoDup_cons_iff in N as [N1 N2]. destruct I as [-> | I]; [apply N1, in_or_app; right; exact J | apply IH; assumption]. Qed.
Section Program.
Variable P : list Z -> option modul.
Fixpoint fulls (g : list (list Z) -> list Z -> list event) (x : list Z) (d : list (list Z)) (ys : list (list Z)) : list event :=
  match ys with [] => [] | y :: r => g d y ++ EClient x y :: fulls g x (d ++ bodies (g d y)) r end.
Definition block (x : list Z) (m : modul) : list event := EReg x :: map (ECmd x) (scmds m) ++ [EBody x].
Fixpoint full (f : nat) (d : list (list Z)) (x : list Z) : list event :=
  match f with
  | O => []
  | S f => if mem x d then [] else match P x with None => [] | Some m => fulls (full f) x d (map snd (simps m)) ++ block x m end
  end.
Lemma bodies_block : forall x m, bodies (block x m) = [x].
Proof. intros. unfold block. change (bodies (EReg x :: ?l)) with (bodies l). cbn [bodies flat_map app]. fold (bodies (map (ECmd x) (scmds m) ++ [EBody x])). rewrite bodies_app, bodies_cmds. reflexivity. Qed.
Definition hl (l : list event) : bool := existsb (fun x => match P x with Some m => halts m | None => false end) (bodies l).
Lemma hl_app : forall a b, hl (a ++ b) = hl a || hl b.
Proof. intros. unfold hl. rewrite bodies_app, existsb_app. reflexivity. Qed.
(** [runs o w l d]: from the world [w], in which [d] are set, the outcome [o] is that of the log [l]. *)
Definition runs (o : out) (w : world) (l : list event) (d : list (list Z)) : Prop :=
  if hl l then exists w' a x b, o = Halted w' /\ l = a ++ EBody x :: b /\ hl a = false /\ hl [EBody x] = true /\ log w' = log w ++ a ++ [EBody x]
  else exists w', o = Back w' /\ log w' = log w ++ l /\ (forall z, In z (set w') <-> In z d \/ In z (bodies l)).

Variable rank : list Z -> nat.
Hypothesis rank_ok : forall x a y, In (a, y) (imports_of P x) -> (rank y < rank x)%nat.
Definition wf := well_formed P.
Lemma wf_mod : forall x, wf x -> exists m, P x = Some m /\ sorted_as fst (imports_of P x) (simps m) /\ sorted_as (fun c => c) (commands m) (scmds m).
Proof.
  intros x (m & E & N & I). exists m. split; [exact E |]. unfold imports_of. rewrite E. split; [apply simps_ok | apply scmds_ok]; assumption.
Qed.
(** Everything that is needed by [x] is there. *)
Definition deep (x : list Z) : Prop := forall y, needs P x y -> wf y.
Lemma needs_trans : forall x y z, needs P x y -> needs P y z -> needs P x z.
Proof. intros x y z H K. induction K; [exact H | eapply needs_step; eassumption]. Qed.
Lemma deep_imp : forall x a y, deep x -> In (a, y) (imports_of P x) -> deep y.
Proof. intros x a y D I z K. apply D. eapply needs_trans; [| exact K]. eapply needs_step; [apply needs_self | exact I]. Qed.
Lemma needs_rank : forall x y, needs P x y -> (rank y <= rank x)%nat.
Proof. intros x y H. induction H; [lia |]. apply rank_ok in H0. lia. Qed.
Lemma simps_in : forall x m y, P x = Some m -> wf x -> (In y (map snd (simps m)) <-> exists a, In (a, y) (imports_of P x)).
Proof.
  intros x m y E W. destruct (wf_mod x W) as (m' & E' & (Q & _) & _). rewrite E in E'. injection E' as <-. rewrite in_map_iff. split.
  - intros ((a, y') & <- & K). exists a. eapply Permutation_in; [apply Permutation_sym, Q | exact K].
  - intros (a & K). exists (a, y). split; [reflexivity |]. eapply Permutation_in; [exact Q | exact K].
Qed.
Lemma needs_inv : forall x z, needs P x z -> z = x \/ exists a y, In (a, y) (imports_of P x) /\ needs P y z.
Proof.
  intros x z H. induction H as [| y z a H IH I]; [left; reflexivity |]. right. destruct IH as [-> | (b & u & J & K)]; [exists a, z; split; [exact I | apply needs_self] |].
  exists b, u. split; [exact J |]. eapply needs_step; eassumption.
Qed.
(** Closed under import. *)
Definition closed (d : list (list Z)) : Prop := forall x y, In x d -> needs P x y -> In y d.
Lemma closed_app : forall d y l, closed d -> (forall z, In z (d ++ l) <-> In z d \/ needs P y z) -> closed (d ++ l).
Proof.
  intros d y l C H x z K N. apply H. apply H in K as [K | K]; [left; eapply C; eassumption | right; eapply needs_trans; eassumption].
Qed.
(** The modules executed are those needed. *)
Lemma fulls_needs : forall (g : list (list Z) -> list Z -> list event) x ys d, closed d -> (forall d y, In y ys -> closed d -> forall z, In z (d ++ bodies (g d y)) <-> In z d \/ needs P y z) ->
  forall z, In z (d ++ bodies (fulls g x d ys)) <-> In z d \/ exists y, In y ys /\ needs P y z.
Proof.
  intros g x. induction ys as [| y r IH]; intros d C H z; cbn [fulls].
  - cbn [bodies flat_map]. rewrite app_nil_r. split; [tauto |]. intros [K | (y & [] & _)]; exact K.
  - rewrite bodies_app. change (bodies (EClient x y :: ?l)) with (bodies l). rewrite app_assoc.
    pose proof (H d y (or_introl eq_refl) C) as Hy.
    rewrite IH; [| eapply closed_app; [exact C | exact Hy] | intros; apply H; [right |]; assumption]. rewrite Hy.
    split; [intros [[K | K] | (u & J & K)]; [left; exact K | right; exists y; split; [left; reflexivity | exact K] | right; exists u; split; [right; exact J | exact K]] |].
    intros [K | (u & [<- | J] & K)]; [tauto | tauto | right; exists u; tauto].
Qed.
Lemma full_needs : forall f d x, (rank x < f)%nat -> deep x -> closed d -> forall z, In z (d ++ bodies (full f d x)) <-> In z d \/ needs P x z.
Proof.
  induction f as [| f IH]; intros d x R D C z; [lia |]. cbn [full]. destruct (mem x d) eqn:M.
  - apply mem_in in M. cbn [bodies flat_map]. rewrite app_nil_r. split; [tauto |]. intros [K | K]; [exact K | eapply C; eassumption].
  - pose proof (D x (needs_self P x)) as W. destruct (wf_mod x W) as (m & E & _). rewrite E, bodies_app, bodies_block, app_assoc, in_app_iff.
    rewrite (fulls_needs (full f) x (map snd (simps m)) d C).
    + cbn [In]. split.
      * intros [[K | (y & J & K)] | [<- | []]]; [tauto | right | right; apply needs_self]. apply (simps_in x m y E W) in J as (a & J). eapply needs_trans; [| exact K]. eapply needs_step; [apply needs_self | exact J].
      * intros [K | K]; [tauto |]. apply needs_inv in K as [-> | (a & y & J & K)]; [tauto |]. left. right. exists y. split; [| exact K]. apply (simps_in x m y E W). exists a. exact J.
    + intros d' y J C'. apply (simps_in x m y E W) in J as (a & J). apply IH; [apply rank_ok in J; lia | eapply deep_imp; eassumption | exact C'].
Qed.

(** * The order in which the bodies are executed *)
Lemma order_cons : forall d y l1 w l2, order P d [y] l1 -> order P (d ++ l1) w l2 -> order P d (y :: w) (l1 ++ l2).
Proof.
  intros d y l1 w l2 H K. inversion H as [| ? ? ? ? I J | ? ? ? s a b I S J L]; subst.
  - inversion J; subst. rewrite app_nil_r in K. cbn [app]. apply order_done; assumption.
  - inversion L; subst. rewrite <- app_assoc. cbn [app]. eapply order_new; eassumption.
Qed.
Lemma fulls_order : forall (g : list (list Z) -> list Z -> list event) x ys d, (forall d y, In y ys -> order P d [y] (bodies (g d y))) -> order P d ys (bodies (fulls g x d ys)).
Proof.
  intros g x. induction ys as [| y r IH]; intros d H; cbn [fulls]; [constructor |].
  rewrite bodies_app. change (bodies (EClient x y :: ?l)) with (bodies l). apply order_cons; [apply H; left; reflexivity | apply IH; intros; apply H; right; assumption].
Qed.
Lemma full_order : forall f d x, (rank x < f)%nat -> deep x -> order P d [x] (bodies (full f d x)).
Proof.
  induction f as [| f IH]; intros d x R D; [lia |]. cbn [full]. destruct (mem x d) eqn:M; [apply mem_in in M; apply order_done; [exact M | constructor] |].
  apply mem_not in M. pose proof (D x (needs_self P x)) as W. destruct (wf_mod x W) as (m & E & S & _). rewrite E, bodies_app, bodies_block.
  eapply order_new; [exact M | exact S | | constructor]. apply fulls_order. intros d' y J. apply (simps_in x m y E W) in J as (a & J). apply IH; [apply rank_ok in J; lia | eapply deep_imp; eassumption].
Qed.
Lemma order_nodup : forall d w l, order P d w l -> NoDup d -> (exists n, forall x, In x w -> (rank x < n)%nat) -> NoDup (d ++ l) /\ forall z, In z l -> exists y, In y w /\ (rank z <= rank y)%nat.
Proof.
  intros d w l H. induction H as [d | d x w l I H IH | d x w s l1 l2 I S H1 IH1 H2 IH2]; intros N [n B].
  - rewrite app_nil_r. split; [exact N | intros z []].
  - destruct (IH N) as [A C]; [exists n; intros; apply B; right; assumption |]. split; [exact A |]. intros z K. apply C in K as (y & J & K). exists y. split; [right; exact J | exact K].
  - assert (Q : forall y, In y (map snd s) -> (rank y < rank x)%nat).
    { intros y K. apply in_map_iff in K as ((a, y') & <- & K). apply rank_ok with a. eapply Permutation_in; [apply Permutation_sym, S | exact K]. }
    destruct (IH1 N) as [A C]; [exists (rank x); exact Q |].
    assert (X : ~ In x (d ++ l1)). { intros K. apply in_app_iff in K as [K | K]; [contradiction |]. apply C in K as (y & J & K). apply Q in J. lia. }
    destruct IH2 as [A2 C2]; [rewrite app_assoc; apply NoDup_app_iff_local; assumption | exists n; intros; apply B; right; assumption |].
    rewrite <- !app_assoc in A2. cbn [app] in A2. split; [exact A2 |]. intros z K. apply in_app_iff in K as [K | [<- | K]].
    + apply C in K as (y & J & K). apply Q in J. exists x. split; [left; reflexivity | lia].
    + exists x. split; [left; reflexivity | lia].
    + apply C2 in K as (y & J & K). exists y. split; [right; exact J | exact K].
Qed.

(** * Execution *)
Lemma set_is : forall x w d, (forall z, In z (set w) <-> In z d) -> is_set x w = mem x d.
Proof.
  intros x w d H. unfold is_set. fold (mem x (set w)). destruct (mem x d) eqn:E; [apply mem_in in E; apply mem_in, H, E | apply mem_not in E; apply mem_not; rewrite H; exact E].
Qed.
Lemma exec_imports : forall call g x hlt rest ys w d, (forall z, In z (set w) <-> In z d) ->
  (forall y d w, In y ys -> (forall z, In z (set w) <-> In z d) -> runs (call y w) w (g d y) d) ->
  let l := fulls g x d ys in
  if hl l then runs (exec call x hlt (map SImport ys ++ rest) w) w l d
  else exists w', exec call x hlt (map SImport ys ++ rest) w = exec call x hlt rest w' /\ log w' = log w ++ l /\ (forall z, In z (set w') <-> In z d \/ In z (bodies l)).
Proof.
  intros call g x hlt rest. induction ys as [| y r IH]; intros w d S H; cbn [fulls map app].
  - cbn [hl bodies flat_map existsb]. exists w. split; [reflexivity |]. split; [rewrite app_nil_r; reflexivity |]. intros z. rewrite S. cbn. tauto.
  - cbv zeta in *. rewrite hl_app. change (hl (EClient x y :: ?l)) with (hl l). cbn [exec].
    pose proof (H y d w (or_introl eq_refl) S) as R. unfold runs in R. destruct (hl (g d y)) eqn:E1; cbn [orb].
    + destruct R as (w' & a & u & b & Eo & El & Ha & Hu & Ew). rewrite Eo. unfold runs. rewrite hl_app, E1. cbn [orb]. exists w', a, u, (b ++ EClient x y :: fulls g x (d ++ bodies (g d y)) r). split; [reflexivity |]. split; [rewrite El at 1; rewrite <- app_assoc; reflexivity |]. auto.
    + destruct R as (w1 & Eo & Ew & Es). rewrite Eo.
      assert (S1 : forall z, In z (set (say (EClient x y) w1)) <-> In z (d ++ bodies (g d y))). { intros z. cbn [say set]. rewrite Es, in_app_iff. tauto. }
      specialize (IH (say (EClient x y) w1) (d ++ bodies (g d y)) S1 (fun y' d' w' I => H y' d' w' (or_intror I))).
      destruct (hl (fulls g x (d ++ bodies (g d y)) r)) eqn:E2.
      * unfold runs in *. rewrite hl_app, E1. change (hl (EClient x y :: ?l)) with (hl l). rewrite E2 in *. cbn [orb]. destruct IH as (w' & a & u & b & Eo' & El & Ha & Hu & Ew').
        exists w', (g d y ++ EClient x y :: a), u, b. split; [exact Eo' |]. split; [rewrite El, <- app_assoc; reflexivity |]. split; [rewrite hl_app, E1; exact Ha |]. split; [exact Hu |]. rewrite Ew'. cbn [say log]. rewrite Ew, <- !app_assoc. reflexivity.
      * destruct IH as (w' & Eo' & El & Es'). exists w'. split; [exact Eo' |]. split; [rewrite El; cbn [say log]; rewrite Ew, <- !app_assoc; reflexivity |]. intros z. rewrite Es', bodies_app, !in_app_iff. change (bodies (EClient x y :: ?l)) with (bodies l). tauto.
Qed.
Lemma exec_cmds : forall call x hlt rest cs w, exec call x hlt (map SRegcmd cs ++ rest) w = exec call x hlt rest {| set := set w; log := log w ++ map (ECmd x) cs |}.
Proof.
  intros call x hlt rest. induction cs as [| c r IH]; intros w; cbn [map app exec]; [rewrite app_nil_r; destruct w; reflexivity |]. rewrite IH. cbn [say set log]. rewrite <- app_assoc. reflexivity.
Qed.
Lemma hl_body : forall x m, P x = Some m -> hl [EBody x] = halts m.
Proof. intros x m E. cbn. rewrite E. destruct (halts m); reflexivity. Qed.
Lemma hl_nobody : forall l, bodies l = [] -> hl l = false.
Proof. intros l E. unfold hl. rewrite E. reflexivity. Qed.
Lemma full_run : forall f x d w, (rank x < f)%nat -> deep x -> (forall z, In z (set w) <-> In z d) -> runs (init P f x w) w (full f d x) d.
Proof.
  induction f as [| f IH]; intros x d w R D S; [lia |]. cbn [init full].
  pose proof (D x (needs_self P x)) as W. destruct (wf_mod x W) as (m & E & _). rewrite E. unfold code. cbn [exec app]. rewrite (set_is x w d S).
  destruct (mem x d) eqn:M.
  - unfold runs. cbn [hl bodies flat_map existsb]. exists w. split; [reflexivity |]. split; [rewrite app_nil_r; reflexivity |]. intros z. rewrite S. cbn. tauto.
  - apply mem_not in M. rewrite InitImports_eq, RegCmds_eq.
    assert (Q : forall y, In y (map snd (simps m)) -> (rank y < rank x)%nat /\ deep y).
    { intros y J. apply (simps_in x m y E W) in J as (a & J). split; [apply (rank_ok x a), J | eapply deep_imp; eassumption]. }
    pose proof (exec_imports (init P f) (full f) x (halts m) (SRegmod :: map SRegcmd (scmds m) ++ [SBody; SEndmod]) (map snd (simps m)) w d S) as X.
    cbv zeta in X. specialize (X (fun y d' w' J S' => IH y d' w' ltac:(destruct (Q y J); lia) (proj2 (Q y J)) S')).
    set (l := fulls (full f) x d (map snd (simps m))) in *. cbn [app] in X.
    destruct (hl l) eqn:E1.
    + unfold runs in *. rewrite hl_app, E1 in *. cbn [orb]. destruct X as (w' & a & u & b & Eo & El & Ha & Hu & Ew). exists w', a, u, (b ++ block x m). split; [exact Eo |]. split; [rewrite El, <- app_assoc; reflexivity |]. auto.
    + destruct X as (w1 & Eo & El & Es). rewrite Eo. cbn [exec].
      assert (N : ~ In x (bodies l)).
      { intros K. assert (O : order P d (map snd (simps m)) (bodies l)). { apply fulls_order. intros d' y J. apply full_order; [destruct (Q y J); lia | apply (Q y J)]. }
        assert (Z : forall d w l, order P d w l -> forall z, In z l -> exists y, In y w /\ (rank z <= rank y)%nat).
        { clear -rank_ok. intros d w l H. induction H as [d | d x w l I H IH | d x w s l1 l2 I S H1 IH1 H2 IH2]; intros z K; [destruct K | destruct (IH z K) as (y & A & B); exists y; split; [right; exact A | exact B] |].
          apply in_app_iff in K as [K | [<- | K]]; [destruct (IH1 z K) as (y & A & B) | exists x; split; [left; reflexivity | lia] | destruct (IH2 z K) as (y & A & B); exists y; split; [right; exact A | exact B]].
          exists x. split; [left; reflexivity |]. apply in_map_iff in A as ((a, y') & <- & A). assert (rank y' < rank x)%nat; [| cbn in B; lia]. apply rank_ok with a. eapply Permutation_in; [apply Permutation_sym, S | exact A]. }
        destruct (Z _ _ _ O x K) as (y & J & L). destruct (Q y J). lia. }
      rewrite (set_is x w1 (d ++ bodies l)) by (intros z; rewrite Es, in_app_iff; tauto).
      replace (mem x (d ++ bodies l)) with false by (symmetry; apply mem_not; rewrite in_app_iff; tauto).
      rewrite exec_cmds. cbn [exec say set log].
      unfold runs. rewrite hl_app, E1. cbn [orb].
      assert (HB : hl (block x m) = halts m). { unfold hl. rewrite bodies_block. cbn [existsb]. rewrite E. apply orb_false_r. }
      rewrite HB. destruct (halts m) eqn:Hm.
      * eexists _, (l ++ EReg x :: map (ECmd x) (scmds m)), x, []. split; [reflexivity |]. split; [unfold block; rewrite <- !app_assoc; reflexivity |]. split; [rewrite hl_app, E1; apply hl_nobody; exact (bodies_cmds x (scmds m)) |]. split; [rewrite (hl_body x m E); exact Hm |]. cbn [say log]. rewrite El, <- !app_assoc. reflexivity.
      * eexists. split; [reflexivity |]. cbn [say log set]. split; [rewrite El; unfold block; rewrite <- !app_assoc; reflexivity |]. intros z. cbn [In]. rewrite Es, bodies_app, bodies_block, in_app_iff. cbn [In]. tauto.
Qed.

(** * Blocks *)
Definition own (xs : list (list Z)) (l : list event) : Prop := forall e x, In e l -> In x (about e) -> In x xs.
Definition blk (d : list (list Z)) (l : list event) (x : list Z) : Prop :=
  exists m a b, P x = Some m /\ l = a ++ block x m ++ b /\ (forall n y, In (n, y) (imports_of P x) -> In y (d ++ bodies a)) /\
    (forall y, clients x y a = count_occ (list_eq_dec Z.eq_dec) (map snd (imports_of P x)) y) /\
    (forall e, In e a -> In x (about e) -> exists y, e = EClient x y) /\ (forall e, In e b -> ~ In x (about e)).
Lemma own_clients : forall xs l x y, own xs l -> ~ In x xs -> clients x y l = 0%nat.
Proof.
  intros xs l x y O N. unfold clients. assert (E : filter (fun e => match e with EClient a b => name_eqb a x && name_eqb b y | _ => false end) l = []); [| rewrite E; reflexivity].
  assert (G : forall e, In e l -> match e with EClient a b => name_eqb a x && name_eqb b y | _ => false end = false).
  { intros e I. destruct e; try reflexivity. destruct (name_eqb x0 x) eqn:K; [| reflexivity]. apply name_eqb_eq in K. subst x0. exfalso. apply N. apply (O _ x I). left. reflexivity. }
  revert G. clear. induction l as [| e r IH]; intros G; cbn [filter]; [reflexivity |]. rewrite (G e (or_introl eq_refl)). apply IH. intros e' I. apply G. right. exact I.
Qed.
Lemma block_about : forall x m e z, In e (block x m) -> In z (about e) -> z = x.
Proof.
  intros x m e z I K. unfold block in I. destruct I as [<- | I]; [destruct K as [<- | []]; reflexivity |]. apply in_app_iff in I as [I | [<- | []]]; [| destruct K as [<- | []]; reflexivity].
  apply in_map_iff in I as (c & <- & _). destruct K as [<- | []]. reflexivity.
Qed.
Lemma blk_left : forall d l r x, blk d l x -> (forall e, In e r -> ~ In x (about e)) -> blk d (l ++ r) x.
Proof.
  intros d l r x (m & a & b & E & El & I & C & A & B) N. exists m, a, (b ++ r). split; [exact E |]. split; [rewrite El, <- !app_assoc; reflexivity |]. split; [exact I |]. split; [exact C |]. split; [exact A |].
  intros e K. apply in_app_iff in K as [K | K]; [apply B, K | apply N, K].
Qed.
Lemma blk_right : forall d xs l r x, blk (d ++ bodies l) r x -> own xs l -> ~ In x xs -> blk d (l ++ r) x.
Proof.
  intros d xs l r x (m & a & b & E & El & I & C & A & B) O N. exists m, (l ++ a), b. split; [exact E |]. split; [rewrite El, <- !app_assoc; reflexivity |].
  split; [intros n y K; rewrite bodies_app, app_assoc; eapply I, K |]. split; [intros y; rewrite clients_app, (own_clients xs l x y O N), C; reflexivity |]. split; [| exact B].
  intros e K L. apply in_app_iff in K as [K | K]; [exfalso; apply N, (O e x K L) | apply A; assumption].
Qed.
Definition good_part (g : list (list Z) -> list Z -> list event) (x y : list Z) : Prop :=
  forall d, NoDup d -> closed d -> NoDup (d ++ bodies (g d y)) /\ own (bodies (g d y)) (g d y) /\ ~ In x (bodies (g d y)) /\ (forall z, In z (bodies (g d y)) -> blk d (g d y) z) /\
    (forall z, In z (d ++ bodies (g d y)) <-> In z d \/ needs P y z).
Lemma own_mono : forall xs ys l, own xs l -> incl xs ys -> own ys l.
Proof. intros xs ys l O I e x K L. apply I, (O e x K L). Qed.
Lemma fulls_blk : forall g x ys d, NoDup d -> closed d -> (forall y, In y ys -> good_part g x y) ->
  let l := fulls g x d ys in
  NoDup (d ++ bodies l) /\ own (x :: bodies l) l /\ ~ In x (bodies l) /\ (forall z, In z (bodies l) -> blk d l z) /\
  (forall y, clients x y l = count_occ (list_eq_dec Z.eq_dec) ys y) /\ (forall e, In e l -> In x (about e) -> exists y, e = EClient x y) /\
  (forall y, In y ys -> In y (d ++ bodies l)).
Proof.
  intros g x. induction ys as [| y r IH]; intros d N C H l; subst l; cbn [fulls].
  - cbn [bodies flat_map]. rewrite app_nil_r. split; [exact N |]. split; [intros ? ? [] |]. split; [intros [] |]. split; [intros ? [] |]. split; [intros ?; reflexivity |]. split; [intros ? [] | intros ? []].
  - destruct (H y (or_introl eq_refl) d N C) as (N1 & O1 & X1 & B1 & D1). pose proof (closed_app d y _ C D1) as C1.
    destruct (IH (d ++ bodies (g d y)) N1 C1 (fun y' I => H y' (or_intror I))) as (N2 & O2 & X2 & B2 & K2 & A2 & I2).
    set (l1 := g d y) in *. set (l2 := fulls g x (d ++ bodies l1) r) in *.
    rewrite bodies_app. change (bodies (EClient x y :: l2)) with (bodies l2).
    assert (DJ : forall z, In z (bodies l1) -> ~ In z (bodies l2)).
    { intros z I J. apply (NoDup_disj _ _ _ z N2); [apply in_or_app; right; exact I | exact J]. }
    split; [rewrite app_assoc; exact N2 |]. split; [| split; [| split; [| split; [| split]]]].
    + intros e z I K. apply in_app_iff in I as [I | [<- | I]].
      * right. apply in_or_app. left. apply (O1 e z I K).
      * destruct K as [<- | []]. left. reflexivity.
      * destruct (O2 e z I K) as [-> | J]; [left; reflexivity | right; apply in_or_app; right; exact J].
    + rewrite in_app_iff. tauto.
    + intros z I. apply in_app_iff in I as [I | I].
      * apply blk_left; [apply B1, I |]. intros e [<- | J] K; [destruct K as [-> | []]; contradiction |]. destruct (O2 e z J K) as [-> | Q]; [contradiction | exact (DJ z I Q)].
      * change (l1 ++ EClient x y :: l2) with (l1 ++ [EClient x y] ++ l2). rewrite app_assoc. apply (blk_right d (x :: bodies l1)).
        -- rewrite bodies_app. cbn [bodies flat_map app]. rewrite app_nil_r. apply B2, I.
        -- intros e u J K. apply in_app_iff in J as [J | [<- | []]]; [right; apply (O1 e u J K) | destruct K as [<- | []]; left; reflexivity].
        -- intros [<- | J]; [contradiction | exact (DJ z J I)].
    + intros u. rewrite clients_app, (own_clients _ l1 x u O1 X1). change (EClient x y :: l2) with ([EClient x y] ++ l2). rewrite clients_app, K2. cbn [count_occ]. unfold clients. cbn [filter]. rewrite name_eqb_refl. cbn [andb].
      unfold name_eqb. destruct (list_eq_dec Z.eq_dec y u); reflexivity.
    + intros e I K. apply in_app_iff in I as [I | [<- | I]]; [exfalso; apply X1, (O1 e x I K) | exists y; reflexivity | apply A2; assumption].
    + intros u [<- | I]; rewrite app_assoc; [apply in_or_app; left; apply D1; right; apply needs_self | apply I2, I].
Qed.
Lemma simps_count : forall x m y, P x = Some m -> wf x -> count_occ (list_eq_dec Z.eq_dec) (map snd (simps m)) y = count_occ (list_eq_dec Z.eq_dec) (map snd (imports_of P x)) y.
Proof.
  intros x m y E W. destruct (wf_mod x W) as (m' & E' & (Q & _) & _). rewrite E in E'. injection E' as <-. apply Permutation_count_occ. apply Permutation_map, Permutation_sym, Q.
Qed.
(** A module and all it needs: the imports followed by the block. *)
Lemma finish_blk : forall g x m d tail, P x = Some m -> wf x -> NoDup d -> closed d -> ~ In x d -> (forall y, In y (map snd (simps m)) -> good_part g x y) -> (forall e, In e tail -> about e = []) ->
  let l := fulls g x d (map snd (simps m)) ++ block x m ++ tail in
  NoDup (d ++ bodies (fulls g x d (map snd (simps m))) ++ [x]) /\ own (bodies (fulls g x d (map snd (simps m))) ++ [x]) l /\ (forall z, In z (bodies (fulls g x d (map snd (simps m))) ++ [x]) -> blk d l z).
Proof.
  intros g x m d tail E W N C X H T. cbv zeta.
  destruct (fulls_blk g x (map snd (simps m)) d N C H) as (N2 & O2 & X2 & B2 & K2 & A2 & I2).
  set (l := fulls g x d (map snd (simps m))) in *.
  split; [rewrite app_assoc; apply NoDup_app_iff_local; [exact N2 | rewrite in_app_iff; tauto] |]. split.
  - intros e z I K. apply in_app_iff in I as [I | I]; [destruct (O2 e z I K) as [<- | J]; apply in_or_app; [right; left; reflexivity | left; exact J] |].
    apply in_app_iff in I as [I | I]; [rewrite (block_about x m e z I K); apply in_or_app; right; left; reflexivity | rewrite (T e I) in K; destruct K].
  - intros z I. apply in_app_iff in I as [I | [<- | []]].
    + apply blk_left; [apply B2, I |]. intros e J K. apply in_app_iff in J as [J | J]; [apply (block_about x m e z J) in K as ->; contradiction | rewrite (T e J) in K; destruct K].
    + exists m, l, tail. split; [exact E |]. split; [reflexivity |]. split; [| split; [| split]].
      * intros n y I. apply I2. apply (simps_in x m y E W). exists n. exact I.
      * intros y. rewrite K2. apply simps_count; assumption.
      * exact A2.
      * intros e I. rewrite (T e I). intros [].
Qed.
Lemma full_part : forall f x y, (rank y < f)%nat -> deep y -> (rank y < rank x)%nat \/ ~ needs P y x -> good_part (full f) x y.
Proof.
  induction f as [| f IH]; intros x y R D L d N C; [lia |]. pose proof (full_needs (S f) d y R D C) as FN.
  assert (X : ~ In x (bodies (full (S f) d y))).
  { intros K. pose proof (full_order (S f) d y R D) as O. destruct (order_nodup _ _ _ O N) as [ND Z]; [exists (S f); intros u [<- | []]; exact R |].
    destruct L as [L | L]; [destruct (Z x K) as (u & [<- | []] & J); lia |].
    assert (J : In x d \/ needs P y x) by (apply FN; apply in_or_app; right; exact K). destruct J as [J | J]; [| contradiction].
    exact (NoDup_disj _ _ _ x ND J K). }
  split; [apply (order_nodup _ _ _ (full_order (S f) d y R D) N); exists (S f); intros u [<- | []]; exact R |].
  revert X. cbn [full] in *. destruct (mem y d) eqn:M; intros X.
  - cbn [bodies flat_map] in *. split; [intros e z [] |]. split; [intros [] |]. split; [intros z [] | exact FN].
  - apply mem_not in M. pose proof (D y (needs_self P y)) as W. destruct (wf_mod y W) as (m & E & _). rewrite E in *.
    destruct (finish_blk (full f) y m d [] E W N C M) as (_ & O & B); [| intros e [] |].
    + intros u J. apply (simps_in y m u E W) in J as (a & J). pose proof (rank_ok _ _ _ J). apply IH; [lia | eapply deep_imp; eassumption | left; assumption].
    + rewrite app_nil_r in *. rewrite bodies_app, bodies_block in *. auto.
Qed.
End Program.

