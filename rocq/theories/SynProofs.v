(** * The parser: it always ends *)
From Verif Require Import Base SynSpec SynModel.
Local Open Scope Z_scope.

Section Proofs.
Variable ismod : Z -> bool.
Variables isvar isstd istproc : node -> bool.
Notation qualident := (qualident ismod).
Notation step := (step ismod isvar isstd istproc).
Notation parse := (parse ismod isvar isstd istproc).
Notation statement := (statement ismod isstd).

Ltac unf := cbv [SynModel.step expression simple simple_loop term term_loop factor element elements_loop sets selector index_loop
  args_loop call std_call labels_loop arm elsif_loop else_part cases_loop withs_loop SynModel.statement stat_loop] in *.

(** ** More fuel *)
Lemma step_mono : forall (r1 r2 : mode -> st -> res (node * st)), (forall m s x, r1 m s = Ok x -> r2 m s = Ok x) ->
  forall m s x, step r1 m s = Ok x -> step r2 m s = Ok x.
Proof.
  intros r1 r2 H m s x E.
  destruct m; unf;
  repeat match goal with
    | E : Ok _ = Ok _ |- _ => exact E
    | E : r1 ?m ?s = Ok _ |- r2 ?m ?s = Ok _ => apply H; exact E
    | E : context [bind (Ok _) _] |- _ => cbn [bind] in E |- *
    | E : context [r1 ?m ?s] |- _ =>
        let K := fresh "K" in destruct (r1 m s) as [[? ?]|?| |] eqn:K; cbn [bind] in E; try discriminate E;
        apply H in K; rewrite ?K; cbn [bind]
    | E : context [SynModel.qualident ismod ?s] |- _ => destruct (SynModel.qualident ismod s)
    | E : context [if ?b then _ else _] |- _ => destruct b
    | E : context [match more ?s with _ => _ end] |- _ => destruct (more s)
    end; try assumption; auto.
Qed.

Lemma parse_mono : forall f g, (f <= g)%nat -> forall m s x, parse f m s = Ok x -> parse g m s = Ok x.
Proof.
  induction f as [|f IH]; intros g L m s x E; [discriminate|].
  destruct g as [|g]; [lia|]. cbn [SynModel.parse] in *. revert E. apply step_mono. apply IH. lia.
Qed.

(** ** Lengths *)
Definition len (s : st) : nat := length (fst s).
Lemma len_get : forall s, len (get s) = pred (len s).
Proof. intros [[|t l] e]; reflexivity. Qed.
Lemma len_err : forall n s, len (err n s) = len s.
Proof. reflexivity. Qed.
Lemma len_check : forall n s, (len (check n s) <= len s)%nat.
Proof. intros n s. unfold check. destruct (sym s =? n); [rewrite len_get | rewrite len_err]; lia. Qed.
Lemma sym_pos : forall s, sym s <> 64 -> (1 <= len s)%nat.
Proof. intros [[|t l] e] H; [contradiction H; reflexivity|]. unfold len. cbn. lia. Qed.
Lemma skip_len : forall n l, (length (skip_to n l) <= length l)%nat.
Proof. intros n. induction l as [|t l IH]; cbn; [lia|]. destruct (fst t <? n); cbn; lia. Qed.
Lemma len_resync : forall n e s, (len (resync n e s) <= len s)%nat.
Proof. intros n e s. unfold resync. destruct (sym s <? n); [apply skip_len | lia]. Qed.
Lemma len_resync_lt : forall n e s, n <= 64 -> sym s < n -> (len (resync n e s) < len s)%nat.
Proof.
  intros n e [[|t l] es] N H; unfold resync; cbn in H; [lia|]. replace (sym (t :: l, es) <? n) with true by (symmetry; now apply Z.ltb_lt).
  unfold len. cbn. replace (fst t <? n) with true by (symmetry; now apply Z.ltb_lt). pose proof (skip_len n l). lia.
Qed.
Lemma sym_resync : forall n e s, n <= 64 -> n <= sym (resync n e s).
Proof.
  intros n e s N. unfold resync. destruct (sym s <? n) eqn:E; [|lia]. unfold sym. cbn [fst]. generalize (fst s) as l.
  induction l as [|t l IH]; cbn; [lia|]. destruct (fst t <? n) eqn:F; [exact IH | cbn; lia].
Qed.
Lemma resync_id : forall n e s, n <= sym s -> resync n e s = s.
Proof. intros n e s H. unfold resync. replace (sym s <? n) with false by (symmetry; apply Z.ltb_ge; lia). reflexivity. Qed.
Lemma len_qual : forall s, sym s = 38 -> (len (snd (qualident s)) < len s)%nat.
Proof.
  intros s H. assert (P : (1 <= len s)%nat) by (apply sym_pos; lia). unfold SynModel.qualident.
  destruct (ismod (val s)); [|cbn [snd]; rewrite len_get; lia].
  destruct (sym (get s) =? 18); [|cbn [snd]; rewrite len_err, len_get; lia].
  destruct (sym (get (get s)) =? 38); cbn [snd]; rewrite ?len_err, ?len_get; lia.
Qed.

(** ** Termination *)
Definition rank (m : mode) : nat :=
  match m with
  | MFactor => 1 | MTermL _ => 1 | MTerm => 2 | MSimpleL _ => 1 | MSimple => 3 | MExpr => 4 | MElement => 5 | MElementsL _ => 6
  | MIdx _ => 5 | MArgsL _ => 5 | MSel _ => 1 | MStd _ => 1 | MStat _ _ => 1 | MArm _ => 5 | MElsifL _ _ => 1 | MElse _ => 1
  | MLabelsL _ => 5 | MCasesL _ _ => 6 | MWithsL _ _ => 2
  end.
(** Modes that use up at least one symbol, if there is one. *)
Definition eats (m : mode) : bool :=
  match m with MFactor | MTerm | MSimple | MExpr | MElement | MIdx _ | MArgsL _ | MLabelsL _ => true | _ => false end.

Definition ends (f : nat) (m : mode) (s : st) : Prop :=
  exists n s', parse f m s = Ok (n, s') /\ (len s' <= len s)%nat /\ (eats m = true -> (1 <= len s)%nat -> (len s' < len s)%nat).

Lemma more_len : forall s s1, more s = Some s1 -> (1 <= len s)%nat /\
  ((len s1 < len s)%nat \/ (len s1 = len s /\ 30 <= sym s <= 38)).
Proof.
  intros s s1. unfold more. destruct (sym s =? 19) eqn:E.
  - intros H. inversion H; subst. apply Z.eqb_eq in E. assert (1 <= len s)%nat by (apply sym_pos; lia). rewrite len_get. lia.
  - destruct ((30 <=? sym s) && (sym s <=? 38)) eqn:F; [|discriminate]. intros H. inversion H; subst.
    apply andb_true_iff in F. destruct F as (F1 & F2). apply Z.leb_le in F1, F2.
    assert (1 <= len s)%nat by (apply sym_pos; lia). rewrite len_err. lia.
Qed.

Ltac lens :=
  repeat match goal with
    | |- context [len (get ?s)] => rewrite (len_get s)
    | |- context [len (err ?n ?s)] => rewrite (len_err n s)
    | |- context [len (check ?n ?s)] => let H := fresh in pose proof (len_check n s) as H; revert H; generalize (len (check n s))
    end; intros.

(** Make a recursive call. *)
Ltac call IH :=
  match goal with
  | |- context [parse ?f ?m ?s] =>
    let n := fresh "n" in let s' := fresh "s'" in let E := fresh "E" in let L := fresh "L" in let P := fresh "P" in
    destruct (IH m s) as (n & s' & E & L & P); [cbn [rank] in *; lens; lia | rewrite E; cbn [bind]; clear E; cbn [eats] in P;
      try specialize (P eq_refl)]
  end.
Ltac eqb_sym :=
  repeat match goal with
    | H : (_ =? _) = true |- _ => apply Z.eqb_eq in H
    | H : (_ <? _) = true |- _ => apply Z.ltb_lt in H
    | H : (_ <? _) = false |- _ => apply Z.ltb_ge in H
    | H : (_ =? _) = false |- _ => apply Z.eqb_neq in H
    | H : _ && _ = true |- _ => apply andb_true_iff in H; destruct H
    | H : (_ <=? _) = true |- _ => apply Z.leb_le in H
    end.
Ltac fin := do 2 eexists; split; [reflexivity|]; split; [lens; lia | intros; cbn [eats] in *; try discriminate; lens; lia].

Lemma call_ends : forall f x s, (forall m s, (20 * len s + rank m <= f)%nat -> ends f m s) -> sym s = 30 ->
  (20 * len s <= f)%nat -> exists n s', call (parse f) x s = Ok (n, s') /\ (len s' < len s)%nat.
Proof.
  intros f x s IH H F. assert (P : (1 <= len s)%nat) by (apply sym_pos; lia). unfold call.
  destruct (sym (get s) =? 22).
  - do 2 eexists. split; [reflexivity|]. lens. lia.
  - call IH. do 2 eexists. split; [reflexivity|]. lens. rewrite len_get in *. lia.
Qed.

Lemma ends_all : forall f m s, (20 * len s + rank m <= f)%nat -> ends f m s.
Proof.
  induction f as [|f IH]; intros m s F; [destruct m; cbn [rank] in F; lia|].
  unfold ends. cbn [SynModel.parse].
  destruct m; cbn [SynModel.step].
  - (* MExpr *) unfold expression. call IH. destruct ((9 <=? sym s') && (sym s' <=? 14)) eqn:C1.
    + eqb_sym. assert (1 <= len s')%nat by (apply sym_pos; lia). call IH. rewrite len_get in *. fin.
    + destruct (sym s' =? 15) eqn:C2.
      * eqb_sym. assert (1 <= len s')%nat by (apply sym_pos; lia). call IH. rewrite len_get in *. fin.
      * destruct (sym s' =? 16) eqn:C3; [|fin]. destruct (sym (get s') =? 38) eqn:C4; [|fin].
        eqb_sym. pose proof (len_qual _ C4) as Q. destruct (qualident (get s')) as [t s3]. cbn [snd] in Q. rewrite len_get in Q. fin.
  - (* MSimple *) unfold simple. destruct (sym s =? 7) eqn:C1; [|destruct (sym s =? 6) eqn:C2].
    + eqb_sym. assert (1 <= len s)%nat by (apply sym_pos; lia). call IH. rewrite len_get in *. call IH. fin.
    + eqb_sym. assert (1 <= len s)%nat by (apply sym_pos; lia). call IH. rewrite len_get in *. call IH. fin.
    + call IH. call IH. fin.
  - (* MSimpleL *) unfold simple_loop. destruct ((6 <=? sym s) && (sym s <=? 8)) eqn:C1; [|fin].
    eqb_sym. assert (1 <= len s)%nat by (apply sym_pos; lia). call IH. rewrite len_get in *. call IH. fin.
  - unfold term. call IH. call IH. fin.
  - unfold term_loop. destruct ((1 <=? sym s) && (sym s <=? 5)) eqn:C1; [|fin].
    eqb_sym. assert (1 <= len s)%nat by (apply sym_pos; lia). call IH. rewrite len_get in *. call IH. fin.
  - (* MFactor *) unfold factor. cbv zeta. pose proof (len_resync 30 13 s) as RL. pose proof (fun H => len_resync_lt 30 13 s H) as RT.
    pose proof (sym_resync 30 13 s) as RS. assert (RN : 30 <= sym s -> resync 30 13 s = s) by apply resync_id.
    set (r := resync 30 13 s) in *.
    assert (LT : (1 <= len s)%nat -> (len r < len s)%nat \/ (len r = len s /\ (1 <= len r)%nat)).
    { intros H. destruct (Z_lt_ge_dec (sym s) 30); [left; apply RT; lia | right; rewrite RN by lia; lia]. }
    clearbody r. cbn [rank] in F.
    destruct (sym r =? 38) eqn:C1.
    { eqb_sym. pose proof (len_qual _ C1) as Q. destruct (qualident r) as [q s1]. cbn [snd] in Q. call IH.
      destruct (isstd n).
      - call IH. fin.
      - destruct (sym s' =? 30) eqn:C2; [|fin]. eqb_sym. destruct (call_ends f n s' IH C2) as (n2 & s2 & E2 & L2); [lia|].
        rewrite E2. fin. }
    destruct (sym r =? 35) eqn:C2; [fin|]. destruct (sym r =? 37) eqn:C3; [fin|]. destruct (sym r =? 36) eqn:C4; [fin|].
    destruct (sym r =? 30) eqn:C5.
    { eqb_sym. assert (1 <= len r)%nat by (apply sym_pos; lia). call IH. rewrite len_get in *. fin. }
    destruct (sym r =? 31) eqn:C6.
    { eqb_sym. assert (1 <= len r)%nat by (apply sym_pos; lia). call IH. rewrite len_err, len_get in *. fin. }
    destruct (sym r =? 32) eqn:C7.
    { eqb_sym. assert (1 <= len r)%nat by (apply sym_pos; lia). unfold sets. destruct (sym (get r) =? 24); [fin|].
      call IH. rewrite len_get in *. call IH. fin. }
    destruct (sym r =? 33) eqn:C8.
    { eqb_sym. assert (1 <= len r)%nat by (apply sym_pos; lia). call IH. rewrite len_get in *. fin. }
    fin.
  - (* MElement *) unfold element. call IH. destruct (sym s' =? 21) eqn:C1; [|fin].
    eqb_sym. assert (1 <= len s')%nat by (apply sym_pos; lia). call IH. rewrite len_get in *. fin.
  - (* MElementsL *) unfold elements_loop. destruct (more s) as [s1|] eqn:M; [|fin]. destruct (more_len _ _ M) as (M1 & M2).
    cbn [rank] in F. call IH. call IH. fin.
  - (* MSel *) unfold selector. cbn [rank] in F. destruct (sym s =? 31) eqn:C1.
    { eqb_sym. assert (1 <= len s)%nat by (apply sym_pos; lia). call IH. rewrite len_get in *. call IH. revert L0. lens. intros. fin. }
    destruct (sym s =? 18) eqn:C2.
    { eqb_sym. assert (1 <= len s)%nat by (apply sym_pos; lia). destruct (sym (get s) =? 38) eqn:C3.
      - destruct (istproc (NField x (val (get s))) && (sym (get (get s)) =? 17)).
        + call IH. rewrite !len_get in *. fin.
        + call IH. rewrite !len_get in *. fin.
      - call IH. rewrite len_err, len_get in *. fin. }
    destruct (sym s =? 17) eqn:C3.
    { eqb_sym. assert (1 <= len s)%nat by (apply sym_pos; lia). call IH. rewrite !len_get in *. fin. }
    destruct ((sym s =? 30) && isvar x) eqn:C4; [|fin].
    eqb_sym. assert (1 <= len s)%nat by (apply sym_pos; lia). destruct (sym (get s) =? 38) eqn:C5.
    + eqb_sym. pose proof (len_qual _ C5) as Q. destruct (qualident (get s)) as [t s2]. cbn [snd] in Q. rewrite len_get in Q.
      call IH. revert L. lens. intros. fin.
    + pose proof (len_check 22 (err 38 (get s))) as K. rewrite len_err, len_get in K. call IH. fin.
  - (* MIdx *) unfold index_loop. call IH. destruct (sym s' =? 19) eqn:C1; [|fin].
    eqb_sym. assert (1 <= len s')%nat by (apply sym_pos; lia). cbn [rank] in F. call IH. rewrite len_get in *. fin.
  - (* MArgsL *) unfold args_loop. call IH. destruct (more s') as [s1|] eqn:M; [|fin]. destruct (more_len _ _ M) as (M1 & M2).
    cbn [rank] in F. call IH. fin.
  - (* MStd *) unfold std_call. destruct (sym s =? 30) eqn:C1; [|fin].
    eqb_sym. assert (1 <= len s)%nat by (apply sym_pos; lia). destruct (sym (get s) =? 22); [fin|].
    cbn [rank] in F. call IH. rewrite len_get in *. fin.
  - (* MStat *) unfold stat_loop. cbn [rank] in F. pose proof (len_resync 38 14 s) as RL. pose proof (fun H => len_resync_lt 38 14 s H) as RT.
    pose proof (sym_resync 38 14 s) as RS. assert (RN : 38 <= sym s -> resync 38 14 s = s) by apply resync_id.
    set (r := resync 38 14 s) in *.
    assert (ST : exists n s', statement (parse f) lv r = Ok (n, s') /\ (len s' <= len r)%nat /\
      ((len s' < len r)%nat \/ (s' = r /\ (39 <= sym r) /\ ~ (45 <= sym r <= 53)))).
    { clearbody r. unfold SynModel.statement. destruct (sym r =? 38) eqn:C1.
      { eqb_sym. pose proof (len_qual _ C1) as Q. destruct (qualident r) as [q s1]. cbn [snd] in Q. call IH.
        destruct (sym s' =? 34); [call IH; rewrite len_get in *; do 2 eexists; split; [reflexivity|]; lia|].
        destruct (sym s' =? 9); [call IH; rewrite len_get, len_err in *; do 2 eexists; split; [reflexivity|]; lia|].
        destruct (isstd n); [call IH; do 2 eexists; split; [reflexivity|]; lia|].
        destruct (sym s' =? 30) eqn:C2; [|do 2 eexists; split; [reflexivity|]; lia].
        eqb_sym. destruct (call_ends f n s' IH C2) as (n2 & s2 & E2 & L2); [lia|]. rewrite E2. do 2 eexists. split; [reflexivity|]. lia. }
      destruct (sym r =? 45) eqn:C2.
      { eqb_sym. assert (1 <= len r)%nat by (apply sym_pos; lia). call IH. rewrite len_get in *. call IH. call IH.
        do 2 eexists. split; [reflexivity|]. lens. lia. }
      destruct (sym r =? 46) eqn:C3.
      { eqb_sym. assert (1 <= len r)%nat by (apply sym_pos; lia). call IH. rewrite len_get in *.
        pose proof (len_check 25 s'). call IH. call IH. do 2 eexists. split; [reflexivity|]. lens. lia. }
      destruct (sym r =? 47) eqn:C4.
      { eqb_sym. assert (1 <= len r)%nat by (apply sym_pos; lia). call IH. rewrite len_get in *.
        pose proof (len_check 27 s'). call IH. do 2 eexists. split; [reflexivity|]. lens. lia. }
      destruct (sym r =? 48) eqn:C5.
      { eqb_sym. assert (1 <= len r)%nat by (apply sym_pos; lia). call IH. rewrite len_get in *.
        destruct (sym s' =? 44); [call IH; rewrite len_get in *|]; do 2 eexists; (split; [reflexivity|]); rewrite ?len_err; lia. }
      destruct (sym r =? 49) eqn:C6.
      { eqb_sym. assert (1 <= len r)%nat by (apply sym_pos; lia). destruct (sym (get r) =? 38) eqn:C7.
        - eqb_sym. pose proof (len_qual _ C7) as Q. destruct (qualident (get r)) as [q s2]. cbn [snd] in Q. rewrite len_get in Q.
          pose proof (len_check 34 s2). call IH. pose proof (len_check 28 s'). call IH.
          assert (BY : exists n2 s5, (if sym s'0 =? 29 then parse f MExpr (get s'0) else Ok (NNone, s'0)) = Ok (n2, s5) /\ (len s5 <= len s'0)%nat).
          { destruct (sym s'0 =? 29); [|eauto]. call IH. rewrite len_get in *. do 2 eexists. split; [reflexivity|]. lia. }
          destruct BY as (n2 & s5 & -> & LB). cbn [bind]. pose proof (len_check 27 s5). call IH.
          do 2 eexists. split; [reflexivity|]. lens. lia.
        - do 2 eexists. split; [reflexivity|]. rewrite len_err, len_get. lia. }
      destruct (sym r =? 50) eqn:C7.
      { eqb_sym. assert (1 <= len r)%nat by (apply sym_pos; lia). call IH. rewrite len_get in *. do 2 eexists. split; [reflexivity|]. lens. lia. }
      destruct (sym r =? 51) eqn:C8.
      { eqb_sym. assert (1 <= len r)%nat by (apply sym_pos; lia). call IH. rewrite len_get in *. call IH.
        do 2 eexists. split; [reflexivity|]. lens. lia. }
      destruct (sym r =? 52) eqn:C9.
      { eqb_sym. assert (1 <= len r)%nat by (apply sym_pos; lia). do 2 eexists. split; [reflexivity|].
        destruct (lv =? 0); rewrite ?len_err, ?len_get; lia. }
      destruct (sym r =? 53) eqn:C10.
      { eqb_sym. assert (1 <= len r)%nat by (apply sym_pos; lia). destruct (sym (get r) <? 39); [call IH|]; do 2 eexists; (split; [reflexivity|]); rewrite ?len_get in *; lia. }
      eqb_sym. do 2 eexists. split; [reflexivity|]. split; [lia|]. right. split; [reflexivity|]. lia. }
    destruct ST as (n & s1 & -> & L1 & L2). cbn [bind]. clear RN.
    destruct (sym s1 =? 39) eqn:C1.
    { eqb_sym. assert (1 <= len s1)%nat by (apply sym_pos; lia). call IH. rewrite len_get in *. fin. }
    destruct ((sym s1 <=? 38) || ((45 <=? sym s1) && (sym s1 <=? 53))) eqn:C2; [|fin].
    assert (C : sym s1 <= 38 \/ 45 <= sym s1 <= 53).
    { apply orb_true_iff in C2. destruct C2 as [C2|C2]; eqb_sym; lia. }
    assert (1 <= len s1)%nat by (apply sym_pos; lia).
    assert (LT : (len s1 < len s)%nat) by (destruct L2 as [L2|(-> & L2)]; lia).
    call IH. rewrite len_err in *. fin.
  - (* MArm *) unfold arm. call IH. cbn [rank] in F. pose proof (len_check 26 s'). call IH. fin.
  - (* MElsifL *) unfold elsif_loop. destruct (sym s =? 43) eqn:C1; [|fin].
    eqb_sym. assert (1 <= len s)%nat by (apply sym_pos; lia). cbn [rank] in F. call IH. rewrite len_get in *. call IH. fin.
  - (* MElse *) unfold else_part. destruct (sym s =? 42) eqn:C1; [|fin].
    eqb_sym. assert (1 <= len s)%nat by (apply sym_pos; lia). cbn [rank] in F. call IH. rewrite len_get in *. fin.
  - (* MCasesL *) unfold cases_loop. cbn [rank] in F.
    assert (CS : exists x s1, (if sym s <? 40 then
       let* (l, s1) := parse f (MLabelsL []) s in
       let* (y, s2) := parse f (MStat lv []) (check 20 s1) in Ok (NDo (list_of l) y, s2)
     else Ok (NNone, s)) = Ok (x, s1) /\ (len s1 <= len s)%nat).
    { destruct (sym s <? 40); [|eauto]. call IH. pose proof (len_check 20 s'). call IH. do 2 eexists. split; [reflexivity|]. lia. }
    destruct CS as (x & s1 & -> & L1). cbn [bind]. destruct (sym s1 =? 40) eqn:C1; [|fin].
    eqb_sym. assert (1 <= len s1)%nat by (apply sym_pos; lia). call IH. rewrite len_get in *. fin.
  - (* MLabelsL *) unfold labels_loop. call IH. cbn [rank] in F.
    assert (CS : exists x s1, (if sym s' =? 21 then let* (y, s2) := parse f MExpr (get s') in Ok (NRange n y, s2) else Ok (NElem n, s')) = Ok (x, s1) /\
       (len s1 <= len s')%nat).
    { destruct (sym s' =? 21); [|eauto]. call IH. rewrite len_get in *. do 2 eexists. split; [reflexivity|]. lia. }
    destruct CS as (x & s1 & -> & L1). cbn [bind]. destruct (sym s1 =? 19) eqn:C1.
    { eqb_sym. assert (1 <= len s1)%nat by (apply sym_pos; lia). call IH. rewrite len_get in *. fin. }
    destruct ((sym s1 =? 35) || (sym s1 =? 38)) eqn:C2; [|fin].
    assert (1 <= len s1)%nat by (apply sym_pos; apply orb_true_iff in C2; destruct C2; eqb_sym; lia).
    call IH. rewrite len_err in *. fin.
  - (* MWithsL *) unfold withs_loop. cbn [rank] in F.
    set (g := if sym s =? 38 then _ else _).
    assert (LG : (len (snd g) <= len s)%nat).
    { unfold g. destruct (sym s =? 38) eqn:C1; [|cbn [snd]; rewrite len_err; lia]. eqb_sym.
      pose proof (len_qual _ C1) as Q. destruct (qualident s) as [x s1]. cbn [snd] in Q. pose proof (len_check 20 s1).
      destruct (sym (check 20 s1) =? 38) eqn:C2; [|cbn [snd]; rewrite len_err; lia]. eqb_sym.
      pose proof (len_qual _ C2) as Q2. destruct (qualident (check 20 s1)) as [t s3]. cbn [snd] in *. lia. }
    destruct g as [gd s1]. cbn [snd] in LG. pose proof (len_check 27 s1). call IH.
    destruct (sym s' =? 40) eqn:C1; [|fin].
    eqb_sym. assert (1 <= len s')%nat by (apply sym_pos; lia). call IH. rewrite len_get in *. fin.
Qed.

(** ** The parser without fuel *)
Definition run (m : mode) (s : st) : res (node * st) := parse (20 * len s + rank m) m s.

Lemma run_ok : forall f m s x, parse f m s = Ok x -> run m s = Ok x.
Proof.
  intros f m s x E. unfold run. destruct (ends_all (20 * len s + rank m) m s ltac:(lia)) as (n & s' & E' & _).
  pose proof (parse_mono f (max f (20 * len s + rank m)) ltac:(lia) _ _ _ E) as E1.
  pose proof (parse_mono (20 * len s + rank m) (max f (20 * len s + rank m)) ltac:(lia) _ _ _ E') as E2. congruence.
Qed.

Lemma run_eq : forall m s, run m s = step run m s.
Proof.
  intros m s. destruct (ends_all (20 * len s + rank m) m s ltac:(lia)) as (n & s' & E' & _).
  unfold run at 1. rewrite E'. symmetry. destruct (20 * len s + rank m)%nat as [|f]; [discriminate|]. cbn [SynModel.parse] in E'.
  revert E'. apply step_mono. intros m1 s1 x. apply run_ok.
Qed.

Lemma parse_run : forall f m s, (20 * len s + rank m <= f)%nat -> parse f m s = run m s.
Proof.
  intros f m s F. destruct (ends_all f m s F) as (n & s' & E & _). rewrite E. symmetry. eapply run_ok. exact E.
Qed.
End Proofs.
