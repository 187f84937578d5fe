(** * The parser for modules: it always ends *)
From Verif Require Import Base SynSpec SynModel SynProofs SynComplete SynSound UnitSpec UnitModel.
Local Open Scope Z_scope.

Section Proofs.
Variable ismod : nat -> Z -> bool.
Variables isvar isstd istproc : nat -> node -> bool.
Notation qual := (qual ismod).
Notation expr := (expr ismod isvar isstd istproc).
Notation stats := (stats ismod isvar isstd istproc).
Notation CheckSysFlag := (CheckSysFlag ismod isvar isstd istproc).
Notation name := (name ismod).
Notation base := (base ismod).
Notation result := (result ismod).
Notation ustep := (ustep ismod isvar isstd istproc).
Notation uparse := (uparse ismod isvar isstd istproc).
Notation piece := (piece ismod isvar isstd istproc).

(** ** Expressions and statements (C67) *)
Lemma expr_ends : forall s, exists x s', expr s = Ok (x, s') /\ (len s' <= len s)%nat /\ ((1 <= len s)%nat -> (len s' < len s)%nat).
Proof.
  intros s. unfold UnitModel.expr, syn. set (n := at_ s).
  destruct (ends_all (ismod n) (isvar n) (isstd n) (istproc n) (fuel_for (fst s)) MExpr s) as (x & s' & E & L & P); [unfold len, fuel_for; cbn [rank]; lia|].
  exists x, s'. split; [exact E|]. split; [exact L|]. apply P. reflexivity.
Qed.
Lemma stats_ends : forall s, exists x s', stats s = Ok (x, s') /\ (len s' <= len s)%nat.
Proof.
  intros s. unfold UnitModel.stats, syn. set (n := at_ s).
  destruct (ends_all (ismod n) (isvar n) (isstd n) (istproc n) (fuel_for (fst s)) (MStat 0 []) s) as (x & s' & E & L & P); [unfold len, fuel_for; cbn [rank]; lia|].
  exists x, s'. split; [exact E|]. exact L.
Qed.
Lemma expr_ok : forall s x s', expr s = Ok (x, s') -> snd s' = [] -> snd s = [] /\ piece Expr (fst s) (fst s') x.
Proof. intros s x s' E N. destruct (sound _ _ _ _ _ _ _ _ _ E N) as (A & a & B & C1). split; [exact A|]. exists a. split; [exact B|]. exact C1. Qed.
Lemma stats_ok : forall s x s', stats s = Ok (x, s') -> snd s' = [] -> snd s = [] /\ piece (Seq 0) (fst s) (fst s') x.
Proof.
  intros s x s' E N. destruct (sound _ _ _ _ _ _ _ _ _ E N) as (A & l & -> & K & _). split; [exact A|]. destruct (K eq_refl) as (a & B & C1).
  exists a. split; [exact B|]. exact C1.
Qed.
Lemma name_ok : forall s q s', qual s = (q, s') -> sym s = 38 -> snd s' = [] -> snd s = [] /\ piece Qual (fst s) (fst s') q.
Proof. intros s q s' E S N. unfold UnitModel.qual in E. destruct (qual_ok _ (isvar (at_ s)) (isstd (at_ s)) (istproc (at_ s)) _ _ _ E S N) as (A & (a & B & C1) & _). split; [exact A|]. exists a. split; [exact B|]. exact C1. Qed.
Lemma expr_full : forall ts r x e, piece Expr ts r x -> fExp (sym (r, e)) -> expr (ts, e) = Ok (x, (r, e)).
Proof.
  intros ts r x e (a & E & H) F. unfold UnitModel.expr, syn, at_. cbn [fst]. rewrite parse_run by (unfold len, fuel_for; cbn [fst rank]; lia).
  pose proof (complete _ _ _ _ _ _ _ H) as K. cbn [C] in K. specialize (K r e F). rewrite <- E in K. exact K.
Qed.
Lemma stats_full : forall ts r x e, piece (Seq 0) ts r x -> fSeq (sym (r, e)) -> stats (ts, e) = Ok (x, (r, e)).
Proof.
  intros ts r x e (a & E & H) F. unfold UnitModel.stats, syn, at_. cbn [fst]. rewrite parse_run by (unfold len, fuel_for; cbn [fst rank]; lia).
  destruct (complete _ _ _ _ _ _ _ H) as (l & -> & K). pose proof (seq_end _ _ _ _ _ _ _ r e K F) as Z. rewrite <- E in Z. exact Z.
Qed.
Lemma qual_full : forall ts r q e, piece Qual ts r q -> sym (ts, e) = 38 /\ qual (ts, e) = (q, (r, e)).
Proof.
  intros ts r q e (a & E & H). pose proof (complete _ _ _ _ _ _ _ H) as K. pose proof (firsts _ _ _ _ _ _ _ H) as F. cbn [C] in K. cbn in F. specialize (K r e).
  rewrite E in *. split; [apply (sym_first _ _ _ _ F)|]. unfold UnitModel.qual, at_. cbn [fst]. exact K.
Qed.
Lemma expr_first : forall ts r x e, piece Expr ts r x -> fst_exp (sym (ts, e)).
Proof. intros ts r x e (a & -> & H). pose proof (firsts _ _ _ _ _ _ _ H) as F. cbn in F. apply (sym_first _ _ _ _ F). Qed.

Ltac unf := cbv [UnitModel.ustep array_type names fields record_type pointer_type idents params formal_parameters type consts types vars section sections procs block codes code heading
  body bound procedure imports] in *.

(** ** More fuel *)
Lemma ustep_mono : forall (r1 r2 : unit_ -> st -> res (tree * st)), (forall m s x, r1 m s = Ok x -> r2 m s = Ok x) ->
  forall m s x, ustep r1 m s = Ok x -> ustep r2 m s = Ok x.
Proof.
  intros r1 r2 H m s x E.
  destruct m; unf;
  repeat match goal with
    | E : Ok _ = Ok _ |- _ => exact E
    | E : r1 ?m ?s = Ok _ |- r2 ?m ?s = Ok _ => apply H; exact E
    | E : context [bind (Ok _) _] |- _ => cbn [bind] in E |- *
    | E : context [r1 ?m ?s] |- _ =>
        let K := fresh "K" in destruct (r1 m s) as [[? ?]|?| |] eqn:K; cbn [bind] in E; try discriminate E;
        apply H in K; rewrite ?K; cbn [bind]
    | E : context [UnitModel.CheckSysFlag ismod isvar isstd istproc ?s] |- _ => destruct (UnitModel.CheckSysFlag ismod isvar isstd istproc s) as [[? ?]|?| |]; cbn [bind] in E |- *; try discriminate E
    | E : context [UnitModel.expr ismod isvar isstd istproc ?s] |- _ => destruct (UnitModel.expr ismod isvar isstd istproc s) as [[? ?]|?| |]; cbn [bind] in E |- *; try discriminate E
    | E : context [UnitModel.stats ismod isvar isstd istproc ?s] |- _ => destruct (UnitModel.stats ismod isvar isstd istproc s) as [[? ?]|?| |]; cbn [bind] in E |- *; try discriminate E
    | E : context [UnitModel.qual ismod ?s] |- _ => destruct (UnitModel.qual ismod s)
    | E : context [UnitModel.base ismod ?s] |- _ => destruct (UnitModel.base ismod s)
    | E : context [UnitModel.result ismod ?s] |- _ => destruct (UnitModel.result ismod s)
    | E : context [CheckMark ?l ?s] |- _ => destruct (CheckMark l s)
    | E : context [receiver ?s] |- _ => destruct (receiver s)
    | E : context [kind ?s] |- _ => destruct (kind s)
    | E : context [if ?b then _ else _] |- _ => destruct b
    end; try assumption; auto.
Qed.

Lemma uparse_mono : forall f g, (f <= g)%nat -> forall m s x, uparse f m s = Ok x -> uparse g m s = Ok x.
Proof.
  induction f as [|f IH]; intros g L m s x E; [discriminate|].
  destruct g as [|g]; [lia|]. cbn [UnitModel.uparse] in *. revert E. apply ustep_mono. apply IH. lia.
Qed.

(** ** Lengths *)
Lemma len_check : forall n s, (len (check n s) <= len s)%nat.
Proof. exact (SynProofs.len_check (fun _ => false)). Qed.
Lemma len_resync : forall n e s, (len (resync n e s) <= len s)%nat.
Proof. exact (SynProofs.len_resync (fun _ => false)). Qed.
Lemma len_mark : forall lv s, sym s = 38 -> (len (snd (CheckMark lv s)) < len s)%nat.
Proof.
  intros lv s H. assert (P : (1 <= len s)%nat) by (apply sym_pos; lia). unfold CheckMark. destruct ((sym (get s) =? 1) || (sym (get s) =? 7)); cbn [snd]; [|rewrite len_get; lia].
  destruct (0 <? lv)%nat; rewrite len_get, ?len_err, len_get; lia.
Qed.
Lemma len_flag : forall s, exists f s', CheckSysFlag s = Ok (f, s') /\ (len s' <= len s)%nat.
Proof.
  intros s. unfold UnitModel.CheckSysFlag. destruct (sym s =? 31); [|exists None, s; split; [reflexivity|lia]].
  destruct (expr_ends (get s)) as (e & s1 & E & L & _). rewrite E. cbn [bind]. exists (Some e), (check 23 s1). split; [reflexivity|]. pose proof (len_check 23 s1). rewrite len_get in L. lia.
Qed.
Lemma len_name : forall s, (len (snd (name s)) <= len s)%nat.
Proof. intros s. unfold UnitModel.name. destruct (sym s =? 38) eqn:E; [|cbn [snd]; rewrite ?len_err; lia]. apply Z.eqb_eq in E. pose proof (len_qual (ismod (at_ s)) s E). unfold UnitModel.qual. lia. Qed.
Lemma len_qual' : forall s, sym s = 38 -> (len (snd (qual s)) < len s)%nat.
Proof. intros s H. apply len_qual. exact H. Qed.
Lemma len_base : forall s, (len (snd (base s)) <= len s)%nat.
Proof.
  intros s. unfold UnitModel.base. destruct (sym s =? 30); [|cbn [snd]; lia]. pose proof (len_name (get s)). destruct (name (get s)) as [q s1]. cbn [snd] in *. pose proof (len_check 22 s1). rewrite len_get in *. lia.
Qed.
Lemma len_result : forall s, (len (snd (result s)) <= len s)%nat.
Proof. intros s. unfold UnitModel.result. destruct (sym s =? 20); [|cbn [snd]; lia]. pose proof (len_name (get s)). destruct (name (get s)) as [q s1]. cbn [snd] in *. rewrite len_get in *. lia. Qed.
Lemma len_receiver : forall s, (len (snd (receiver s)) <= len s)%nat.
Proof.
  intros s. unfold receiver. cbv zeta. cbn [snd]. set (s1 := if sym s =? 60 then get s else s). assert (L : (len s1 <= len s)%nat) by (unfold s1; destruct (sym s =? 60); rewrite ?len_get; lia).
  pose proof (len_check 38 s1). pose proof (len_check 20 (check 38 s1)). set (s2 := check 20 (check 38 s1)) in *. set (s3 := if sym s2 =? 38 then get s2 else err 38 s2).
  assert (L3 : (len s3 <= len s2)%nat) by (unfold s3; destruct (sym s2 =? 38); rewrite ?len_get, ?len_err; lia). pose proof (len_check 22 s3). lia.
Qed.
Lemma len_kind : forall s, (len (snd (kind s)) <= len s)%nat.
Proof. intros s. unfold kind. repeat match goal with |- context [if ?b then _ else _] => destruct b end; cbn [snd]; rewrite ?len_get, ?len_err; lia. Qed.
Lemma type_end_len : forall l e, (len (type_end l e) <= length l)%nat.
Proof. induction l as [|t l IH]; intros e; cbn; [unfold len; cbn; lia|]. destruct (after_type (fst t)); [unfold len; cbn; lia|]. destruct (fst t =? 38); [unfold len; cbn; lia|]. specialize (IH (15 :: e)). lia. Qed.

(** ** Termination *)
Definition urank (u : unit_) : nat :=
  match u with
  | UType _ => 1 | UArray _ => 1 | UNames _ => 1 | UIdents => 1 | UFields _ => 2 | UParams _ => 3 | USig _ => 4
  | USections _ => 5 | UConsts _ => 1 | UTypes _ => 1 | UVars _ => 2 | UProcs _ => 1 | UProc _ => 6 | UBlock _ => 6 | UCodes => 1 | UImports => 1
  end.
(** Lists of names read a name if there is one; if a name comes after a type, something was read. *)
Definition eats (u : unit_) (s s' : st) : Prop :=
  match u with UNames _ | UIdents => sym s = 38 -> (len s' < len s)%nat | UType _ => sym s' = 38 -> (len s' < len s)%nat | _ => True end.
Definition uends (f : nat) (u : unit_) (s : st) : Prop := exists x s', uparse f u s = Ok (x, s') /\ (len s' <= len s)%nat /\ eats u s s'.
Lemma type_end_eats : forall l e, sym (l, e) <> 38 -> sym (type_end l e) = 38 -> (len (type_end l e) < length l)%nat.
Proof.
  intros [|t l] e H K; [cbn in K; discriminate K|]. cbn [type_end] in *. unfold sym in H. cbn [fst] in H. destruct (after_type (fst t)) eqn:A; [unfold sym in K; cbn in K; contradiction|].
  destruct (fst t =? 38) eqn:B; [apply Z.eqb_eq in B; contradiction|]. pose proof (type_end_len l (15 :: e)). cbn [length]. lia.
Qed.

Ltac lens :=
  repeat match goal with
    | |- context [len (get ?s)] => rewrite (len_get s)
    | |- context [len (err ?n ?s)] => rewrite (len_err n s)
    | |- context [len (check ?n ?s)] => let H := fresh in pose proof (len_check n s) as H; revert H; generalize (len (check n s))
    end; intros.
Ltac call IH :=
  match goal with
  | |- context [uparse ?f ?m ?s] =>
    let n := fresh "n" in let s' := fresh "s'" in let E := fresh "E" in let L := fresh "L" in let P := fresh "P" in
    destruct (IH m s) as (n & s' & E & L & P); [cbn [urank] in *; lens; lia | rewrite E; cbn [bind]; clear E; cbn [eats] in P]
  end.
Ltac eqb_sym :=
  repeat match goal with
    | H : (_ =? _) = true |- _ => apply Z.eqb_eq in H
    | H : (_ <? _) = true |- _ => apply Z.ltb_lt in H
    | H : (_ <? _) = false |- _ => apply Z.ltb_ge in H
    | H : (_ =? _) = false |- _ => apply Z.eqb_neq in H
    | H : _ && _ = true |- _ => apply andb_true_iff in H; destruct H
    | H : (_ <=? _) = true |- _ => apply Z.leb_le in H
    end.
Ltac fin := do 2 eexists; split; [reflexivity|]; cbn [eats]; repeat split; try intros; lens; rewrite ?len_get, ?len_err in *; lia.
Ltac pos s := assert (1 <= len s)%nat by (apply sym_pos; lia).

Lemma heading_ends : forall f lv s, (forall m s, (20 * len s + urank m <= f)%nat -> uends f m s) -> (20 * len s <= f)%nat ->
  exists g s', heading (uparse f) lv s = Ok (g, s') /\ (len s' <= len s)%nat.
Proof. intros f lv s IH F. unfold heading. destruct (sym s =? 30) eqn:C1; [|fin]. eqb_sym. pos s. call IH. rewrite len_get in *. fin. Qed.
Lemma body_ends : forall f lv x s, (forall m s, (20 * len s + urank m <= f)%nat -> uends f m s) -> (20 * len s + 6 <= f)%nat ->
  exists b s', body (uparse f) lv x s = Ok (b, s') /\ (len s' <= len s)%nat.
Proof.
  intros f lv x s IH F. unfold body. pose proof (len_check 39 s). call IH. destruct (sym s' =? 38); [destruct (val s' =? x)|]; do 2 eexists; (split; [reflexivity|]); rewrite ?len_get, ?len_err; lia.
Qed.
Lemma section_ends : forall f k n s, (forall m s, (20 * len s + urank m <= f)%nat -> uends f m s) -> (20 * len s <= f)%nat -> (urank n <= 5)%nat -> k <> 64 ->
  exists l s', section (uparse f) k n s = Ok (l, s') /\ (len s' <= len s)%nat /\ ((len s' < len s)%nat \/ (s' = s /\ sym s <> k)).
Proof.
  intros f k n s IH F R K. unfold section. destruct (sym s =? k) eqn:C1; [|eqb_sym; do 2 eexists; split; [reflexivity|]; split; [lia|]; right; auto]. eqb_sym. pos s. call IH. rewrite len_get in *.
  do 2 eexists. split; [reflexivity|]. lia.
Qed.

Lemma uends_all : forall f u s, (20 * len s + urank u <= f)%nat -> uends f u s.
Proof.
  induction f as [|f IH]; intros u s F; [destruct u; cbn [urank] in F; lia|].
  unfold uends. cbn [UnitModel.uparse]. destruct u; cbn [UnitModel.ustep urank] in *.
  - (* UType *) unfold type. cbv zeta. pose proof (len_resync 30 12 s) as RL. set (r := resync 30 12 s) in *. clearbody r.
    match goal with |- context [bind ?c ?k] => assert (X : exists t s1, c = Ok (t, s1) /\ (len s1 <= len r)%nat /\ ((len s1 < len r)%nat \/ sym s1 <> 38)) end.
    { destruct (sym r =? 38) eqn:C1. { eqb_sym. pose proof (len_qual' _ C1) as Q. destruct (qual r) as [q s1]. cbn [snd] in Q. fin. }
      destruct (sym r =? 54) eqn:C2. { eqb_sym. pos r. call IH. rewrite len_get in *. fin. }
      destruct (sym r =? 55) eqn:C3. { eqb_sym. pos r. unfold record_type. destruct (len_flag (get r)) as (fl & s1 & E1 & L1). rewrite E1. cbn [bind]. pose proof (len_base s1) as LB. destruct (base s1) as [b s2]. cbn [snd] in LB.
        rewrite len_get in *. call IH. do 2 eexists. split; [reflexivity|]. lens. lia. }
      destruct (sym r =? 56) eqn:C4. { eqb_sym. pos r. unfold pointer_type. destruct (len_flag (get r)) as (fl & s1 & E1 & L1). rewrite E1. cbn [bind]. pose proof (len_check 28 s1). rewrite len_get in *. destruct (sym (check 28 s1) =? 38) eqn:C5.
        - eqb_sym. pose proof (len_qual' _ C5) as Q. destruct (qual (check 28 s1)) as [q s2]. cbn [snd] in Q. fin.
        - call IH. fin. }
      destruct (sym r =? 61) eqn:C5. { eqb_sym. pos r. destruct (len_flag (get r)) as (fl & s1 & E1 & L1). rewrite E1. cbn [bind]. rewrite len_get in *. destruct (sym s1 =? 30) eqn:C6; [|fin]. eqb_sym. pos s1. call IH. rewrite len_get in *. fin. }
      eqb_sym. do 2 eexists. split; [reflexivity|]. rewrite len_err. split; [lia|]. right. exact C1. }
    destruct X as (t & s1 & -> & L1 & L2). cbn [bind]. do 2 eexists. split; [reflexivity|]. pose proof (type_end_len (fst s1) (snd s1)). split; [unfold len in *; lia|]. cbn [eats]. intros K.
    destruct L2 as [L2|L2]; [unfold len in *; lia|]. pose proof (type_end_eats (fst s1) (snd s1)) as T. rewrite <- surjective_pairing in T. specialize (T L2 K). unfold len in *. lia.
  - (* UArray *) unfold array_type. destruct (len_flag s) as (fl & s1 & E1 & L1). rewrite E1. cbn [bind]. destruct (sym s1 =? 25) eqn:C1.
    + eqb_sym. pos s1. call IH. rewrite len_get in *. fin.
    + destruct (expr_ends s1) as (n & s2 & E2 & L2 & _). rewrite E2. cbn [bind]. destruct (sym s2 =? 25) eqn:C2. { eqb_sym. pos s2. call IH. rewrite len_get in *. fin. }
      destruct (sym s2 =? 19) eqn:C3; [|fin]. eqb_sym. pos s2. destruct (sym (get s2) =? 25); [fin|]. call IH. rewrite len_get in *. fin.
  - (* UNames *) unfold names. destruct (sym s =? 38) eqn:C1.
    + eqb_sym. pose proof (len_mark lv _ C1) as Q. destruct (CheckMark lv s) as [x s1]. cbn [snd] in Q. destruct (sym s1 =? 19) eqn:C2. { eqb_sym. pos s1. call IH. rewrite len_get in *. fin. }
      destruct (sym s1 =? 38) eqn:C3; [|fin]. eqb_sym. pos s1. call IH. rewrite len_err in *. fin.
    + replace (sym (err 38 s)) with (sym s) by reflexivity. destruct (sym s =? 19) eqn:C2. { eqb_sym. pos s. call IH. rewrite len_get, len_err in *. fin. } rewrite C1. eqb_sym. fin.
  - (* UIdents *) unfold idents. destruct (sym s =? 38) eqn:C1.
    + eqb_sym. pos s. destruct (sym (get s) =? 19) eqn:C2. { call IH. rewrite !len_get in *. fin. }
      destruct (sym (get s) =? 38) eqn:C3. { call IH. rewrite len_err, len_get in *. fin. } destruct (sym (get s) =? 60) eqn:C4; [|fin]. call IH. rewrite len_get, len_err, len_get in *. fin.
    + replace (sym (err 38 s)) with (sym s) by reflexivity. destruct (sym s =? 19) eqn:C2. { eqb_sym. pos s. call IH. rewrite len_get, len_err in *. fin. } rewrite C1.
      destruct (sym s =? 60) eqn:C4; [|eqb_sym; fin]. eqb_sym. pos s. call IH. rewrite len_get, !len_err in *. fin.
  - (* UFields *) unfold fields. destruct (sym s =? 38) eqn:C1.
    + eqb_sym. pos s. call IH. specialize (P C1). pose proof (len_check 20 s'). call IH. destruct (sym s'0 =? 39) eqn:C2. { eqb_sym. pos s'0. call IH. rewrite len_get in *. fin. }
      destruct (sym s'0 =? 38) eqn:C3; [|fin]. eqb_sym. call IH. rewrite len_err in *. fin.
    + cbn [bind]. rewrite C1. destruct (sym s =? 39) eqn:C2; [|fin]. eqb_sym. pos s. call IH. rewrite len_get in *. fin.
  - (* UParams *) unfold params. cbv zeta. set (s0 := if sym s =? 60 then get s else s).
    assert (L0 : (len s0 <= len s)%nat) by (unfold s0; destruct (sym s =? 60); rewrite ?len_get; lia). call IH. pose proof (len_check 20 s'). call IH.
    destruct (sym s'0 =? 39) eqn:C2. { eqb_sym. pos s'0. call IH. rewrite len_get in *. fin. }
    destruct (sym s'0 =? 38) eqn:C3; [|fin]. eqb_sym. specialize (P0 C3). pos s'0. call IH. rewrite len_err in *. fin.
  - (* USig *) unfold formal_parameters.
    match goal with |- context [bind ?c ?k] => assert (X : exists t s1, c = Ok (t, s1) /\ (len s1 <= len s)%nat) end.
    { destruct ((sym s =? 38) || (sym s =? 60)); [|fin]. call IH. fin. }
    destruct X as (l & s1 & -> & L1). cbn [bind]. pose proof (len_result (check 22 s1)) as R. pose proof (len_check 22 s1). destruct (result (check 22 s1)) as [q s2]. cbn [snd] in R. fin.
  - (* USections *) unfold sections. destruct (section_ends f 58 (UConsts lv) s IH) as (l1 & s1 & -> & A1 & B1); [lia|cbn; lia|lia|]. cbn [bind].
    destruct (section_ends f 59 (UTypes lv) s1 IH) as (l2 & s2 & -> & A2 & B2); [lia|cbn; lia|lia|]. cbn [bind].
    destruct (section_ends f 60 (UVars lv) s2 IH) as (l3 & s3 & -> & A3 & B3); [lia|cbn; lia|lia|]. cbn [bind].
    destruct ((sym s3 <? 58) || (sym s3 >? 60)) eqn:C1; [fin|]. apply orb_false_iff in C1. destruct C1 as [C1 C2]. rewrite Z.gtb_ltb in C2. eqb_sym.
    assert (LT : (len s3 < len s)%nat).
    { destruct B1 as [B1|[B1 D1]]; [lia|]. subst s1. destruct B2 as [B2|[B2 D2]]; [lia|]. subst s2. destruct B3 as [B3|[B3 D3]]; [lia|]. subst s3. lia. }
    call IH. fin.
  - (* UConsts *) unfold consts. destruct (sym s =? 38) eqn:C1; [|fin]. eqb_sym. pose proof (len_mark lv _ C1) as Q. destruct (CheckMark lv s) as [x s1]. cbn [snd] in Q.
    match goal with |- context [bind ?c ?k] => assert (X : exists t s2, c = Ok (t, s2) /\ (len s2 <= len s1)%nat) end.
    { destruct (sym s1 =? 9). { destruct (expr_ends (get s1)) as (e & s2 & E2 & L2 & _). rewrite E2. rewrite len_get in L2. fin. }
      destruct (sym s1 =? 34); [|fin]. destruct (expr_ends (get (err 9 s1))) as (e & s2 & E2 & L2 & _). rewrite E2. rewrite len_get, len_err in L2. fin. }
    destruct X as (e & s2 & -> & L2). cbn [bind]. pose proof (len_check 39 s2). call IH. fin.
  - (* UTypes *) unfold types. destruct (sym s =? 38) eqn:C1; [|fin]. eqb_sym. pose proof (len_mark lv _ C1) as Q. destruct (CheckMark lv s) as [x s1]. cbn [snd] in Q.
    match goal with |- context [bind ?c ?k] => assert (X : exists t s2, c = Ok (t, s2) /\ (len s2 <= len s1)%nat) end.
    { destruct (sym s1 =? 9). { call IH. rewrite len_get in *. fin. } destruct ((sym s1 =? 34) || (sym s1 =? 20)); [|fin]. call IH. rewrite len_get, len_err in *. fin. }
    destruct X as (e & s2 & -> & L2). cbn [bind]. pose proof (len_check 39 s2). call IH. fin.
  - (* UVars *) unfold vars. destruct (sym s =? 38) eqn:C1; [|fin]. eqb_sym. pos s. call IH. specialize (P C1). pose proof (len_check 20 s'). call IH. pose proof (len_check 39 s'0). call IH. fin.
  - (* UProcs *) unfold procs. destruct (sym s =? 61) eqn:C1; [|fin]. eqb_sym. pos s. call IH. rewrite len_get in *. pose proof (len_check 39 s'). call IH. fin.
  - (* UProc *) unfold procedure. pose proof (len_kind s) as LK. destruct (kind s) as [k s0]. cbn [snd] in LK. destruct (sym s0 =? 30) eqn:C1.
    + eqb_sym. pos s0. unfold bound. cbv zeta. set (s1 := if (0 <? lv)%nat then err 73 (get s0) else get s0). assert (L1 : (len s1 < len s0)%nat) by (unfold s1; destruct (0 <? lv)%nat; rewrite ?len_err, len_get; lia).
      pose proof (len_receiver s1) as LR. destruct (receiver s1) as [r s2]. cbn [snd] in LR. destruct (sym s2 =? 38) eqn:C2; [|fin]. eqb_sym. pose proof (len_mark lv _ C2) as Q. destruct (CheckMark lv s2) as [x s3]. cbn [snd] in Q.
      destruct (heading_ends f (S lv) s3 IH) as (g & s4 & -> & L4); [lia|]. cbn [bind]. destruct (is_forward k); [cbn [bind]; fin|]. destruct (body_ends f (S lv) (fst x) s4 IH) as (b & s5 & -> & L5); [lia|]. cbn [bind]. fin.
    + destruct (sym s0 =? 38) eqn:C2; [|fin]. eqb_sym. pose proof (len_mark lv _ C2) as Q. destruct (CheckMark lv s0) as [x s1]. cbn [snd] in Q. cbv zeta. match goal with |- context [heading _ _ ?s2] => set (s2' := s2) end.
      assert (L2 : len s2' = len s1) by (unfold s2'; match goal with |- context [if ?b then _ else _] => destruct b end; reflexivity).
      destruct (heading_ends f (S lv) s2' IH) as (g & s3 & -> & L3); [lia|]. cbn [bind]. destruct (is_minus k).
      * unfold code. destruct (sym s3 =? 37); [cbn [bind]; fin|]. call IH. fin.
      * destruct (is_forward k); [cbn [bind]; fin|]. destruct (body_ends f (S lv) (fst x) s3 IH) as (b & s5 & -> & L5); [lia|]. cbn [bind]. fin.
  - (* UBlock *) unfold block. call IH. call IH. match goal with |- context [bind ?c ?k] => assert (X : exists t s2, c = Ok (t, s2) /\ (len s2 <= len s'0)%nat) end.
    { destruct (sym s'0 =? 57); [|fin]. destruct (stats_ends (get s'0)) as (b & s3 & E3 & L3). rewrite E3. rewrite len_get in L3. cbn [bind]. fin. }
    destruct X as (b & s3 & -> & L3). cbn [bind]. fin.
  - (* UCodes *) unfold codes. destruct (sym s =? 35) eqn:C1.
    + eqb_sym. pos s. destruct (sym (get s) =? 19). { call IH. rewrite !len_get in *. fin. } destruct (sym (get s) =? 35); [|fin]. call IH. rewrite len_err, len_get in *. fin.
    + destruct (sym s =? 19) eqn:C2. { eqb_sym. pos s. call IH. rewrite len_get in *. fin. } rewrite C1. fin.
  - (* UImports *) unfold imports. destruct (sym s =? 38) eqn:C1.
    + eqb_sym. pos s. cbv zeta.
      match goal with |- context [let (h, s1) := ?c in _] => assert (X : (len (snd c) < len s)%nat) end.
      { destruct (sym (get s) =? 34); [destruct (sym (get (get s)) =? 38)|]; cbn [snd]; rewrite ?len_get, ?len_err, ?len_get; lia. }
      match type of X with (len (snd ?c) < _)%nat => destruct c as [h s1] end. cbn [snd] in X. destruct (sym s1 =? 19) eqn:C2. { eqb_sym. pos s1. call IH. rewrite len_get in *. fin. }
      destruct (sym s1 =? 38) eqn:C3; [|fin]. eqb_sym. pos s1. call IH. rewrite len_err in *. fin.
    + replace (sym (err 38 s)) with (sym s) by reflexivity. destruct (sym s =? 19) eqn:C2. { eqb_sym. pos s. call IH. rewrite len_get, len_err in *. fin. } rewrite C1. fin.
Qed.

(** ** The parser without fuel *)
Definition urun (u : unit_) (s : st) : res (tree * st) := uparse (20 * len s + urank u) u s.
Lemma urun_ok : forall f m s x, uparse f m s = Ok x -> urun m s = Ok x.
Proof.
  intros f m s x E. unfold urun. destruct (uends_all (20 * len s + urank m) m s ltac:(lia)) as (n & s' & E' & _).
  pose proof (uparse_mono f (max f (20 * len s + urank m)) ltac:(lia) _ _ _ E) as E1.
  pose proof (uparse_mono (20 * len s + urank m) (max f (20 * len s + urank m)) ltac:(lia) _ _ _ E') as E2. congruence.
Qed.
Lemma urun_eq : forall m s, urun m s = ustep urun m s.
Proof.
  intros m s. destruct (uends_all (20 * len s + urank m) m s ltac:(lia)) as (n & s' & E' & _).
  unfold urun at 1. rewrite E'. symmetry. destruct (20 * len s + urank m)%nat as [|f]; [discriminate|]. cbn [UnitModel.uparse] in E'.
  revert E'. apply ustep_mono. intros m1 s1 x. apply urun_ok.
Qed.
Lemma uparse_run : forall f m s, (20 * len s + urank m <= f)%nat -> uparse f m s = urun m s.
Proof. intros f m s F. destruct (uends_all f m s F) as (n & s' & E & _). rewrite E. symmetry. eapply urun_ok. exact E. Qed.
End Proofs.
