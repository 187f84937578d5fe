(** * What the parser accepts without an error is derived by the grammar *)
From Verif Require Import Base SynSpec SynModel SynProofs SynComplete SynSound UnitSpec UnitModel UnitProofs.
Local Open Scope Z_scope.

Section Sound.
Variable ismod : nat -> Z -> bool.
Variables isvar isstd istproc : nat -> node -> bool.
Notation uparse := (UnitModel.uparse ismod isvar isstd istproc).
Notation D := (UnitSpec.D ismod isvar isstd istproc).
Notation expr := (UnitModel.expr ismod isvar isstd istproc).
Notation stats := (UnitModel.stats ismod isvar isstd istproc).
Notation qual := (UnitModel.qual ismod).
Notation Flag := (UnitSpec.Flag ismod isvar isstd istproc).
Notation UBase := (UnitSpec.Base ismod isvar isstd istproc).
Notation Result := (UnitSpec.Result ismod isvar isstd istproc).
Notation Heading := (UnitSpec.Heading ismod isvar isstd istproc).
Notation Body := (UnitSpec.Body ismod isvar isstd istproc).

Lemma hd : forall s k, sym s = k -> k <> 64 -> fst s = (k, val s) :: fst (get s).
Proof. intros [[|[a b] r] e] k <- H; cbn in *; [congruence | reflexivity]. Qed.
Lemma check_ok : forall k s, snd (check k s) = [] -> sym s = k /\ snd s = [] /\ check k s = get s.
Proof. intros k s. unfold check. destruct (sym s =? k) eqn:E; cbn; [intros H; apply Z.eqb_eq in E; auto | discriminate]. Qed.
Lemma resync_ok : forall n e s, snd (resync n e s) = [] -> snd s = [] /\ resync n e s = s.
Proof. intros n e s. unfold resync. destruct (sym s <? n); cbn; [discriminate | auto]. Qed.
Lemma type_end_ok : forall l e, snd (type_end l e) = [] -> e = [] /\ type_end l e = (l, e) /\ after_type (sym (l, e)) = true.
Proof.
  assert (A : forall l e, e <> [] -> snd (type_end l e) <> []).
  { induction l as [|t l IH]; intros e H; cbn; [exact H|]. destruct (after_type (fst t)); [exact H|]. destruct (fst t =? 38); [cbn; discriminate|]. apply IH. discriminate. }
  intros [|t l] e H; cbn [type_end] in *; [auto|]. unfold sym. cbn [fst]. destruct (after_type (fst t)) eqn:A1; [auto|]. destruct (fst t =? 38); [cbn in H; discriminate|]. exfalso. revert H. apply A. discriminate.
Qed.

Ltac eqs := repeat match goal with H : (_ =? _) = true |- _ => apply Z.eqb_eq in H | H : (_ =? _) = false |- _ => apply Z.eqb_neq in H end.
Tactic Notation "bd" hyp(E) ident(x) ident(s) ident(K) :=
  match type of E with bind ?c _ = Ok _ => destruct c as [[x s]|?| |] eqn:K; cbn [bind] in E; [|discriminate E|discriminate E|discriminate E] end.
Ltac fin E := inversion E; subst; clear E.

Lemma mark_ok : forall lv s x s', CheckMark lv s = (x, s') -> sym s = 38 -> snd s' = [] -> snd s = [] /\ Def lv (fst s) (fst s') x.
Proof.
  intros lv s x s' E S N. unfold CheckMark in E. cbv zeta in E. pose proof (hd s 38 S ltac:(lia)) as H. rewrite H.
  destruct ((sym (get s) =? 1) || (sym (get s) =? 7)) eqn:C1; fin E; [|split; [exact N | constructor]].
  destruct (0 <? lv)%nat eqn:L; [cbn in N; discriminate N|]. apply Nat.ltb_ge in L. assert (lv = 0%nat) by lia. split; [exact N|]. apply orb_true_iff in C1.
  destruct (sym (get s) =? 1) eqn:C2; eqs.
  - rewrite (hd _ _ C2) by lia. constructor. assumption.
  - destruct C1 as [C1|C1]; [discriminate C1|]. eqs. rewrite (hd _ _ C1) by lia. constructor. assumption.
Qed.
Lemma flag_ok : forall s f s', CheckSysFlag ismod isvar isstd istproc s = Ok (f, s') -> snd s' = [] -> snd s = [] /\ Flag (fst s) (fst s') f.
Proof.
  intros s f s' E N. unfold UnitModel.CheckSysFlag in E. destruct (sym s =? 31) eqn:C1; [|fin E; split; [exact N | constructor]]. eqs.
  bd E e s1 K. fin E. destruct (check_ok _ _ N) as (A & B & R). rewrite R in *. destruct (expr_ok _ _ _ _ _ _ _ K B) as (G & P).
  split; [exact G|]. rewrite (hd _ _ C1) by lia. econstructor. rewrite (hd _ _ A) in P by lia. exact P.
Qed.
Lemma name_ok' : forall s q s', name ismod s = (q, s') -> snd s' = [] -> snd s = [] /\ piece ismod isvar isstd istproc Qual (fst s) (fst s') q.
Proof.
  intros s q s' E N. unfold UnitModel.name in E. destruct (sym s =? 38) eqn:C1; [|fin E; discriminate N]. eqs. exact (name_ok _ _ _ _ _ _ _ E C1 N).
Qed.
Lemma base_ok : forall s f s', base ismod s = (f, s') -> snd s' = [] -> snd s = [] /\ UBase (fst s) (fst s') f.
Proof.
  intros s f s' E N. unfold UnitModel.base in E. destruct (sym s =? 30) eqn:C1; [|fin E; split; [exact N | constructor]]. eqs.
  destruct (name ismod (get s)) as [q s1] eqn:K. fin E. destruct (check_ok _ _ N) as (A & B & R). rewrite R in *. destruct (name_ok' _ _ _ K B) as (G & P).
  split; [exact G|]. rewrite (hd _ _ C1) by lia. econstructor. rewrite (hd _ _ A) in P by lia. exact P.
Qed.
Lemma result_ok : forall s f s', result ismod s = (f, s') -> snd s' = [] -> snd s = [] /\ Result (fst s) (fst s') f.
Proof.
  intros s f s' E N. unfold UnitModel.result in E. destruct (sym s =? 20) eqn:C1; [|fin E; split; [exact N | constructor]]. eqs.
  destruct (name ismod (get s)) as [q s1] eqn:K. fin E. destruct (name_ok' _ _ _ K N) as (G & P). split; [exact G|]. rewrite (hd _ _ C1) by lia. constructor. exact P.
Qed.
Lemma receiver_ok : forall s r s', receiver s = (r, s') -> snd s' = [] -> snd s = [] /\ Receiver (fst s) (fst s') r.
Proof.
  intros s r s' E N. unfold receiver in E. cbv zeta in E. fin E. destruct (check_ok _ _ N) as (A & B & R). rewrite R in *. clear R N.
  set (s1 := if sym s =? 60 then get s else s) in *. destruct (sym (check 20 (check 38 s1)) =? 38) eqn:C1; [|cbn in B; discriminate B]. eqs.
  assert (N : snd (check 20 (check 38 s1)) = []) by exact B. destruct (check_ok _ _ N) as (A1 & B1 & R1). rewrite R1 in *. destruct (check_ok _ _ B1) as (A2 & B2 & R2). rewrite R2 in *.
  pose proof (hd _ _ A2 ltac:(lia)) as H2. pose proof (hd _ _ A1 ltac:(lia)) as H1. pose proof (hd _ _ C1 ltac:(lia)) as H0. pose proof (hd _ _ A ltac:(lia)) as H3.
  rewrite H1 in H2. rewrite H0 in H2. rewrite H3 in H2. destruct (sym s =? 60) eqn:C2; eqs; unfold s1 in *.
  - split; [exact B2|]. rewrite (hd _ _ C2) by lia. rewrite H2. constructor.
  - split; [exact B2|]. rewrite H2. constructor.
Qed.
Lemma kind_ok : forall s k s', kind s = (k, s') -> snd s' = [] -> snd s = [] /\ Kind (fst s) (fst s') k.
Proof.
  intros s k s' E N. unfold kind in E.
  repeat match type of E with context [if ?b then _ else _] => let C := fresh "C" in destruct b eqn:C; [fin E; split; [exact N|]; eqs; try (rewrite (hd _ _ C) by lia); constructor|] end.
  fin E. discriminate N.
Qed.
Lemma shape_n : forall lv a b x, D (UNames lv) a b x -> exists l, x = TNames l.
Proof. intros lv a b x H. inversion H; eauto. Qed.
Lemma shape_i : forall a b x, D UIdents a b x -> exists l, x = TIdents l.
Proof. intros a b x H. inversion H; eauto. Qed.
Lemma shape_c : forall a b x, D UCodes a b x -> exists l, x = TCodes l.
Proof.
  assert (G : forall u a b x, D u a b x -> u = UCodes -> exists l, x = TCodes l) by (induction 1; intros Z; inversion Z; subst; eauto).
  intros a b x H. exact (G _ _ _ _ H eq_refl).
Qed.
Lemma shape_m : forall a b x, D UImports a b x -> exists l, x = TImports l.
Proof. intros a b x H. inversion H; eauto. Qed.
Lemma shape_f : forall lv a b x, D (UFields lv) a b x -> exists l, x = TList l.
Proof.
  assert (G : forall u a b x, D u a b x -> forall lv, u = UFields lv -> exists l, x = TList l) by (induction 1; intros lv0 Z; inversion Z; subst; eauto).
  intros lv a b x H. exact (G _ _ _ _ H lv eq_refl).
Qed.
Lemma shape_t : forall u lv a b x, D u a b x -> In u [UParams lv; USections lv; UConsts lv; UTypes lv; UVars lv; UProcs lv] -> exists l, x = TList l.
Proof. intros u lv a b x H I. destruct H; cbn in I; repeat (destruct I as [I|I]; [try discriminate I; eauto|]); try contradiction. Qed.

(** After a comma the procedure for arrays leaves OF to its caller, which reports it. *)
Definition okp (u : unit_) (s s' : st) (x : tree) : Prop := match u with UArray _ => D u (fst s) (fst s') x \/ sym s' = 25 | _ => D u (fst s) (fst s') x end.
Ltac hdi C H := cbn beta iota delta [okp] in H; rewrite (hd _ _ C) in H by lia.
Section Step.
Variable f : nat.
Hypothesis IH : forall u s x s', uparse f u s = Ok (x, s') -> snd s' = [] -> snd s = [] /\ okp u s s' x.

Lemma heading_ok : forall lv s g s', heading (uparse f) lv s = Ok (g, s') -> snd s' = [] -> snd s = [] /\ Heading lv (fst s) (fst s') g.
Proof.
  intros lv s g s' E N. unfold heading in E. destruct (sym s =? 30) eqn:C1; [|fin E; split; [exact N | constructor]]. eqs. bd E x s1 K. fin E. destruct (IH _ _ _ _ K N) as (A & B).
  split; [exact A|]. rewrite (hd _ _ C1) by lia. constructor. exact B.
Qed.
Lemma body_ok : forall k bound lv x s b s', body (uparse f) lv x s = Ok (b, s') -> snd s' = [] -> k <> Forward -> (k = Minus -> bound = true) ->
  snd s = [] /\ Body k bound lv x (fst s) (fst s') b.
Proof.
  intros k bound lv x s b s' E N K1 K2. unfold body in E. bd E b1 s1 K. destruct (sym s1 =? 38) eqn:C1; [|fin E; discriminate N]. eqs.
  destruct (val s1 =? x) eqn:C2; [|fin E; discriminate N]. apply Z.eqb_eq in C2. fin E. destruct (IH _ _ _ _ K N) as (A & B). destruct (check_ok _ _ A) as (A1 & B1 & R1). rewrite R1 in *.
  split; [exact B1|]. rewrite (hd _ _ A1) by lia. hdi C1 B. constructor; assumption.
Qed.
Lemma section_ok : forall k u s l s', section (uparse f) k u s = Ok (l, s') -> snd s' = [] -> (forall lv, u <> UArray lv) ->
  snd s = [] /\ ((sym s = k /\ exists x, l = list_t x /\ D u (fst (get s)) (fst s') x) \/ (l = [] /\ s' = s)).
Proof.
  intros k u s l s' E N K. unfold section in E. destruct (sym s =? k) eqn:C1; [|fin E; auto]. eqs. bd E x s1 K1. fin E. destruct (IH _ _ _ _ K1 N) as (A & B). split; [exact A|]. left. split; [auto|]. exists x. split; [reflexivity|]. destruct u; try exact B. exfalso. exact (K lv eq_refl).
Qed.

Lemma step_ok : forall u s x s', ustep ismod isvar isstd istproc (uparse f) u s = Ok (x, s') -> snd s' = [] -> snd s = [] /\ okp u s s' x.
Proof.
  intros u s x s' E N. destruct u; cbn [UnitModel.ustep okp] in *.
  - (* UType *) unfold type in E. cbv zeta in E. bd E t s1 K. fin E. destruct (type_end_ok _ _ N) as (N1 & R & AT). rewrite <- surjective_pairing in AT. rewrite R. cbn [fst]. clear N R.
    assert (Z : snd (resync 30 12 s) = [] /\ D (UType lv) (fst (resync 30 12 s)) (fst s1) x).
    { set (r := resync 30 12 s) in *. clearbody r.
      destruct (sym r =? 38) eqn:C1. { eqs. destruct (qual r) as [q s2] eqn:Q. fin K. destruct (name_ok _ isvar isstd istproc _ _ _ Q C1 N1) as (A & B). split; [exact A|]. constructor. exact B. }
      destruct (sym r =? 54) eqn:C2.
      { eqs. destruct (IH _ _ _ _ K N1) as (A & [B|B]); [|rewrite B in AT; discriminate AT]. split; [exact A|]. rewrite (hd _ _ C2) by lia. constructor. exact B. }
      destruct (sym r =? 55) eqn:C3.
      { eqs. bd K t s2 K1. fin K. destruct (check_ok _ _ N1) as (A1 & B1 & R1). rewrite R1 in *. unfold record_type in K1. bd K1 fl s3 K2. destruct (base ismod s3) as [b s4] eqn:K3. bd K1 l s5 K4. fin K1.
        destruct (IH _ _ _ _ K4 B1) as (A4 & B4). destruct (base_ok _ _ _ K3 A4) as (A5 & B5). destruct (flag_ok _ _ _ K2 A5) as (A6 & B6). split; [exact A6|].
        rewrite (hd _ _ C3) by lia. destruct (shape_f _ _ _ _ B4) as (l' & ->). cbn [okp] in B4. hdi A1 B4. econstructor; eassumption. }
      destruct (sym r =? 56) eqn:C4.
      { eqs. unfold pointer_type in K. bd K fl s2 K2. cbv zeta in K. rewrite (hd _ _ C4) by lia. destruct (sym (check 28 s2) =? 38) eqn:C5.
        - eqs. destruct (qual (check 28 s2)) as [q s3] eqn:Q. fin K. destruct (name_ok _ isvar isstd istproc _ _ _ Q C5 N1) as (A & B). destruct (check_ok _ _ A) as (A1 & B1 & R1). rewrite R1 in *.
          destruct (flag_ok _ _ _ K2 B1) as (A6 & B6). split; [exact A6|]. hdi A1 B6. econstructor; [exact B6|]. constructor. exact B.
        - bd K t s3 K3. fin K. destruct (IH _ _ _ _ K3 N1) as (A & B). destruct (check_ok _ _ A) as (A1 & B1 & R1). rewrite R1 in *.
          destruct (flag_ok _ _ _ K2 B1) as (A6 & B6). split; [exact A6|]. hdi A1 B6. econstructor; [exact B6|]. exact B. }
      destruct (sym r =? 61) eqn:C5; [|fin K; discriminate N1].
      eqs. bd K fl s2 K2. rewrite (hd _ _ C5) by lia. destruct (sym s2 =? 30) eqn:C6.
      - eqs. bd K g s3 K3. fin K. destruct (IH _ _ _ _ K3 N1) as (A & B). destruct (flag_ok _ _ _ K2 A) as (A6 & B6). split; [exact A6|]. hdi C6 B6. econstructor; eassumption.
      - fin K. destruct (flag_ok _ _ _ K2 N1) as (A6 & B6). split; [exact A6|]. econstructor; eassumption. }
    destruct Z as (Z1 & Z2). destruct (resync_ok _ _ _ Z1) as (Z3 & Z4). rewrite Z4 in Z2. auto.
  - (* UArray *) unfold array_type in E. bd E fl s1 K1. destruct (sym s1 =? 25) eqn:C1.
    + eqs. bd E t s2 K2. fin E. destruct (IH _ _ _ _ K2 N) as (A & B). destruct (flag_ok _ _ _ K1 A) as (A6 & B6). split; [exact A6|]. left. hdi C1 B6. eapply r_open; eassumption.
    + bd E n s2 K2. destruct (sym s2 =? 25) eqn:C2.
      { eqs. bd E t s3 K3. fin E. destruct (IH _ _ _ _ K3 N) as (A & B). destruct (expr_ok _ _ _ _ _ _ _ K2 A) as (A5 & B5). destruct (flag_ok _ _ _ K1 A5) as (A6 & B6). split; [exact A6|]. left.
        hdi C2 B5. eapply r_fixed; eassumption. }
      destruct (sym s2 =? 19) eqn:C3; [|fin E; discriminate N]. cbv zeta in E. destruct (sym (get s2) =? 25) eqn:C4.
      * eqs. fin E. destruct (expr_ok _ _ _ _ _ _ _ K2 N) as (A5 & B5). destruct (flag_ok _ _ _ K1 A5) as (A6 & B6). auto.
      * eqs. bd E t s3 K3. fin E. destruct (IH _ _ _ _ K3 N) as (A & B). destruct (expr_ok _ _ _ _ _ _ _ K2 A) as (A5 & B5). destruct (flag_ok _ _ _ K1 A5) as (A6 & B6). split; [exact A6|].
        destruct B as [B|B]; [left|right; exact B].
        hdi C3 B5. eapply r_more; try eassumption. intros v t3 Z. apply C4. unfold sym. rewrite Z. reflexivity.
  - (* UNames *) unfold names in E. destruct (sym s =? 38) eqn:C1.
    + eqs. destruct (CheckMark lv s) as [i s1] eqn:M. destruct (sym s1 =? 19) eqn:C2.
      * eqs. bd E l s2 K. fin E. destruct (IH _ _ _ _ K N) as (A & B). destruct (mark_ok _ _ _ _ M C1 A) as (A1 & B1). split; [exact A1|]. destruct (shape_n _ _ _ _ B) as (l' & ->). hdi C2 B1.
        eapply n_more; eassumption.
      * destruct (sym s1 =? 38) eqn:C3. { bd E l s2 K. fin E. destruct (IH _ _ _ _ K N) as (A & B). discriminate A. }
        fin E. destruct (mark_ok _ _ _ _ M C1 N) as (A1 & B1). split; [exact A1|]. constructor. exact B1.
    + exfalso. replace (sym (err 38 s)) with (sym s) in E by reflexivity. rewrite C1 in E. destruct (sym s =? 19); [bd E l s2 K; fin E; destruct (IH _ _ _ _ K N) as (A & B); discriminate A|]. fin E. discriminate N.
  - (* UIdents *) unfold idents in E. destruct (sym s =? 38) eqn:C1.
    + eqs. rewrite (hd _ _ C1) by lia. destruct (sym (get s) =? 19) eqn:C2.
      * eqs. bd E l s2 K. fin E. destruct (IH _ _ _ _ K N) as (A & B). split; [exact A|]. destruct (shape_i _ _ _ B) as (l' & ->). rewrite (hd _ _ C2) by lia. apply i_more. exact B.
      * destruct (sym (get s) =? 38) eqn:C3. { bd E l s2 K. fin E. destruct (IH _ _ _ _ K N) as (A & B). discriminate A. }
        destruct (sym (get s) =? 60) eqn:C4. { bd E l s2 K. fin E. destruct (IH _ _ _ _ K N) as (A & B). discriminate A. }
        fin E. split; [exact N|]. constructor.
    + exfalso. replace (sym (err 38 s)) with (sym s) in E by reflexivity. rewrite C1 in E. destruct (sym s =? 19); [bd E l s2 K; fin E; destruct (IH _ _ _ _ K N) as (A & B); discriminate A|].
      destruct (sym s =? 60); [bd E l s2 K; fin E; destruct (IH _ _ _ _ K N) as (A & B); discriminate A|]. fin E. discriminate N.
  - (* UFields *) unfold fields in E. bd E h s1 K. destruct (sym s =? 38) eqn:C1.
    + eqs. bd K ns s2 K1. bd K t s3 K2. fin K. destruct (sym s1 =? 39) eqn:C2.
      * eqs. bd E l s4 K3. fin E. destruct (IH _ _ _ _ K3 N) as (A3 & B3). destruct (IH _ _ _ _ K2 A3) as (A2 & B2). destruct (check_ok _ _ A2) as (P & Q & R). rewrite R in *. destruct (IH _ _ _ _ K1 Q) as (A1 & B1).
        split; [exact A1|]. destruct (shape_n _ _ _ _ B1) as (l' & ->). destruct (shape_f _ _ _ _ B3) as (l'' & ->). cbn [okp] in B1, B2. hdi P B1. hdi C2 B2. eapply f_more; eassumption.
      * destruct (sym s1 =? 38). { bd E l s4 K3. fin E. destruct (IH _ _ _ _ K3 N) as (A3 & B3). discriminate A3. }
        fin E. destruct (IH _ _ _ _ K2 N) as (A2 & B2). destruct (check_ok _ _ A2) as (P & Q & R). rewrite R in *. destruct (IH _ _ _ _ K1 Q) as (A1 & B1).
        split; [exact A1|]. destruct (shape_n _ _ _ _ B1) as (l' & ->). cbn [okp] in B1. hdi P B1. eapply f_last; eassumption.
    + fin K. rewrite C1 in E. destruct (sym s1 =? 39) eqn:C2; [|fin E; split; [exact N | constructor]]. eqs. bd E l s4 K3. fin E. destruct (IH _ _ _ _ K3 N) as (A3 & B3). split; [exact A3|].
      destruct (shape_f _ _ _ _ B3) as (l'' & ->). rewrite (hd _ _ C2) by lia. apply f_semi. exact B3.
  - (* UParams *) unfold params in E. cbv zeta in E. bd E ns s1 K1. bd E t s2 K2.
    assert (V : forall t, D UIdents (fst (if sym s =? 60 then get s else s)) t ns -> Var ismod isvar isstd istproc (sym s =? 60) (fst s) (fst (if sym s =? 60 then get s else s))).
    { intros t0 _. destruct (sym s =? 60) eqn:C1; [eqs; rewrite (hd _ _ C1) by lia|]; constructor. }
    assert (N0 : snd (if sym s =? 60 then get s else s) = snd s) by (destruct (sym s =? 60); reflexivity).
    destruct (sym s2 =? 39) eqn:C2.
    + eqs. bd E l s4 K3. fin E. destruct (IH _ _ _ _ K3 N) as (A3 & B3). destruct (IH _ _ _ _ K2 A3) as (A2 & B2). destruct (check_ok _ _ A2) as (P & Q & R). rewrite R in *. destruct (IH _ _ _ _ K1 Q) as (A1 & B1).
      split; [rewrite <- N0; exact A1|]. specialize (V _ B1). destruct (shape_i _ _ _ B1) as (l' & ->). destruct (shape_t _ lv _ _ _ B3 ltac:(cbn; auto 8)) as (l'' & ->).
      cbn [okp] in B1, B2. hdi P B1. hdi C2 B2. eapply p_more; eassumption.
    + destruct (sym s2 =? 38). { bd E l s4 K3. fin E. destruct (IH _ _ _ _ K3 N) as (A3 & B3). discriminate A3. }
      fin E. destruct (IH _ _ _ _ K2 N) as (A2 & B2). destruct (check_ok _ _ A2) as (P & Q & R). rewrite R in *. destruct (IH _ _ _ _ K1 Q) as (A1 & B1).
      split; [rewrite <- N0; exact A1|]. specialize (V _ B1). destruct (shape_i _ _ _ B1) as (l' & ->). cbn [okp] in B1. hdi P B1. eapply p_last; eassumption.
  - (* USig *) unfold formal_parameters in E. bd E l s1 K. destruct (result ismod (check 22 s1)) as [q s2] eqn:RR. fin E. destruct (result_ok _ _ _ RR N) as (A & B). destruct (check_ok _ _ A) as (P & Q & R). rewrite R in *.
    destruct ((sym s =? 38) || (sym s =? 60)).
    + destruct (IH _ _ _ _ K Q) as (A1 & B1). split; [exact A1|]. destruct (shape_t _ lv _ _ _ B1 ltac:(cbn; auto 8)) as (l'' & ->). cbn [okp] in B1. hdi P B1. eapply s_some; eassumption.
    + fin K. split; [exact Q|]. rewrite (hd _ _ P) by lia. apply s_none. exact B.
  - (* USections *) unfold sections in E. bd E l1 s1 K1. bd E l2 s2 K2. bd E l3 s3 K3.
    assert (Z : snd s3 = [] /\ exists l, x = TList (l1 ++ l2 ++ l3 ++ l) /\ D (USections lv) (fst s3) (fst s') (TList l)).
    { destruct ((sym s3 <? 58) || (sym s3 >? 60)).
      - fin E. split; [exact N|]. exists []. rewrite app_nil_r. split; [reflexivity | constructor].
      - bd E l s4 K4. fin E. destruct (IH _ _ _ _ K4 N) as (A & B). split; [exact A|]. destruct (shape_t _ lv _ _ _ B ltac:(cbn; auto 8)) as (l'' & ->). exists l''. split; [reflexivity | exact B]. }
    destruct Z as (N3 & l & -> & B). destruct (section_ok _ _ _ _ _ K3 N3) as (N2 & P3); [discriminate|]. destruct (section_ok _ _ _ _ _ K2 N2) as (N1 & P2); [discriminate|]. destruct (section_ok _ _ _ _ _ K1 N1) as (N0 & P1); [discriminate|].
    split; [exact N0|].
    assert (B3 : D (USections lv) (fst s2) (fst s') (TList (l3 ++ l))).
    { destruct P3 as [(S3 & y & -> & Y)|(-> & ->)]; [|exact B]. rewrite (hd _ _ S3) by lia. destruct (shape_t _ lv _ _ _ Y ltac:(cbn; auto 8)) as (l' & ->). eapply d_var; eassumption. }
    assert (B2 : D (USections lv) (fst s1) (fst s') (TList (l2 ++ l3 ++ l))).
    { destruct P2 as [(S3 & y & -> & Y)|(-> & ->)]; [|exact B3]. rewrite (hd _ _ S3) by lia. destruct (shape_t _ lv _ _ _ Y ltac:(cbn; auto 8)) as (l' & ->). eapply d_type; eassumption. }
    destruct P1 as [(S3 & y & -> & Y)|(-> & ->)]; [|exact B2]. rewrite (hd _ _ S3) by lia. destruct (shape_t _ lv _ _ _ Y ltac:(cbn; auto 8)) as (l' & ->). eapply d_const; eassumption.
  - (* UConsts *) unfold consts in E. destruct (sym s =? 38) eqn:C1; [|fin E; split; [exact N | constructor]]. eqs. destruct (CheckMark lv s) as [i s1] eqn:M. bd E e s2 K2. bd E l s3 K3. fin E.
    destruct (IH _ _ _ _ K3 N) as (A3 & B3). destruct (check_ok _ _ A3) as (P & Q & R). rewrite R in *. destruct (sym s1 =? 9) eqn:C2.
    + eqs. destruct (expr_ok _ _ _ _ _ _ _ K2 Q) as (A2 & B2). destruct (mark_ok _ _ _ _ M C1 A2) as (A1 & B1). split; [exact A1|]. destruct (shape_t _ lv _ _ _ B3 ltac:(cbn; auto 8)) as (l' & ->).
      hdi C2 B1. hdi P B2. eapply c_more; eassumption.
    + exfalso. destruct (sym s1 =? 34); [|fin K2; discriminate Q]. destruct (expr_ok _ _ _ _ _ _ _ K2 Q) as (A2 & B2). discriminate A2.
  - (* UTypes *) unfold types in E. destruct (sym s =? 38) eqn:C1; [|fin E; split; [exact N | constructor]]. eqs. destruct (CheckMark lv s) as [i s1] eqn:M. bd E t s2 K2. bd E l s3 K3. fin E.
    destruct (IH _ _ _ _ K3 N) as (A3 & B3). destruct (check_ok _ _ A3) as (P & Q & R). rewrite R in *. destruct (sym s1 =? 9) eqn:C2.
    + eqs. destruct (IH _ _ _ _ K2 Q) as (A2 & B2). destruct (mark_ok _ _ _ _ M C1 A2) as (A1 & B1). split; [exact A1|]. destruct (shape_t _ lv _ _ _ B3 ltac:(cbn; auto 8)) as (l' & ->).
      hdi C2 B1. cbn [okp] in B2. hdi P B2. eapply y_more; eassumption.
    + exfalso. destruct ((sym s1 =? 34) || (sym s1 =? 20)); [|fin K2; discriminate Q]. destruct (IH _ _ _ _ K2 Q) as (A2 & B2). discriminate A2.
  - (* UVars *) unfold vars in E. destruct (sym s =? 38) eqn:C1; [|fin E; split; [exact N | constructor]]. eqs. bd E ns s1 K1. bd E t s2 K2. bd E l s3 K3. fin E.
    destruct (IH _ _ _ _ K3 N) as (A3 & B3). destruct (check_ok _ _ A3) as (P & Q & R). rewrite R in *. destruct (IH _ _ _ _ K2 Q) as (A2 & B2). destruct (check_ok _ _ A2) as (P2 & Q2 & R2). rewrite R2 in *.
    destruct (IH _ _ _ _ K1 Q2) as (A1 & B1). split; [exact A1|]. destruct (shape_n _ _ _ _ B1) as (l1 & ->). destruct (shape_t _ lv _ _ _ B3 ltac:(cbn; auto 8)) as (l' & ->).
    cbn [okp] in B1, B2. hdi P2 B1. hdi P B2. eapply v_more; eassumption.
  - (* UProcs *) unfold procs in E. destruct (sym s =? 61) eqn:C1; [|fin E; split; [exact N | constructor]]. eqs. bd E t s2 K2. bd E l s3 K3. fin E.
    destruct (IH _ _ _ _ K3 N) as (A3 & B3). destruct (check_ok _ _ A3) as (P & Q & R). rewrite R in *. destruct (IH _ _ _ _ K2 Q) as (A2 & B2). split; [exact A2|]. rewrite (hd _ _ C1) by lia.
    destruct (shape_t _ lv _ _ _ B3 ltac:(cbn; auto 8)) as (l' & ->). cbn [okp] in B2. hdi P B2. eapply ps_more; eassumption.
  - (* UProc *) unfold procedure in E. destruct (kind s) as [k s0] eqn:KK. destruct (sym s0 =? 30) eqn:C1.
    + eqs. unfold bound in E. cbv zeta in E. destruct (receiver _) as [r s2] eqn:RC in E. destruct (sym s2 =? 38) eqn:C2; [|fin E; discriminate N]. eqs. destruct (CheckMark lv s2) as [i s3] eqn:M. bd E g s4 K4. bd E b s5 K5. fin E.
      assert (Z : snd s4 = [] /\ Body k true (Datatypes.S lv) (fst i) (fst s4) (fst s') b).
      { destruct (is_forward k) eqn:F; [fin K5; split; [exact N|]; destruct k; try discriminate F; constructor|]. apply body_ok; auto. destruct k; discriminate. }
      destruct Z as (N4 & B4). destruct (heading_ok _ _ _ _ K4 N4) as (N3 & B3). destruct (mark_ok _ _ _ _ M C2 N3) as (N2 & B2). destruct (receiver_ok _ _ _ RC N2) as (N1 & B1).
      destruct (0 <? lv)%nat eqn:L; [discriminate N1|]. apply Nat.ltb_ge in L. assert (lv = 0%nat) by lia. subst lv. destruct (kind_ok _ _ _ KK N1) as (N0 & B0). split; [exact N0|]. hdi C1 B0.
      eapply p_bound; eassumption.
    + destruct (sym s0 =? 38) eqn:C2; [|fin E; discriminate N]. eqs. destruct (CheckMark lv s0) as [i s1] eqn:M. cbv zeta in E. set (cd := (is_system k || _) && _) in E. bd E g s4 K4. bd E b s5 K5. fin E.
      assert (Z : snd s4 = [] /\ Body k false (Datatypes.S lv) (fst i) (fst s4) (fst s') b).
      { destruct (is_minus k) eqn:F0.
        - destruct k; try discriminate F0. bd K5 c s6 K6. fin K5. unfold code in K6. destruct (sym s4 =? 37) eqn:C3.
          + eqs. fin K6. split; [exact N|]. rewrite (hd _ _ C3) by lia. constructor.
          + destruct (IH _ _ _ _ K6 N) as (A & B). split; [exact A|]. destruct (shape_c _ _ _ B) as (l & ->). constructor. exact B.
        - destruct (is_forward k) eqn:F; [fin K5; split; [exact N|]; destruct k; try discriminate F; constructor|]. apply body_ok; auto; destruct k; discriminate. }
      destruct Z as (N4 & B4). destruct (heading_ok _ _ _ _ K4 N4) as (N3 & B3). destruct cd eqn:CD; [discriminate N3|]. destruct (mark_ok _ _ _ _ M C2 N3) as (N2 & B2). destruct (kind_ok _ _ _ KK N2) as (N0 & B0). split; [exact N0|].
      eapply p_plain; try eassumption. intros Hk. unfold cd in CD. apply andb_false_iff in CD. destruct CD as [CD|CD]; [destruct Hk; subst k; discriminate CD|]. apply Nat.ltb_ge in CD. lia.
  - (* UBlock *) unfold block in E. bd E ds s1 K1. bd E ps s2 K2. bd E b s3 K3. fin E. destruct (check_ok _ _ N) as (P & Q & R). rewrite R in *. destruct (sym s2 =? 57) eqn:C1.
    + eqs. bd K3 b0 s4 K4. fin K3. destruct (stats_ok _ _ _ _ _ _ _ K4 Q) as (A3 & B3). destruct (IH _ _ _ _ K2 A3) as (A2 & B2). destruct (IH _ _ _ _ K1 A2) as (A1 & B1). split; [exact A1|].
      destruct (shape_t _ lv _ _ _ B1 ltac:(cbn; auto 8)) as (l1 & ->). destruct (shape_t _ lv _ _ _ B2 ltac:(cbn; auto 8)) as (l2 & ->). cbn [okp] in B2. hdi C1 B2. hdi P B3. eapply b_begin; eassumption.
    + fin K3. destruct (IH _ _ _ _ K2 Q) as (A2 & B2). destruct (IH _ _ _ _ K1 A2) as (A1 & B1). split; [exact A1|].
      destruct (shape_t _ lv _ _ _ B1 ltac:(cbn; auto 8)) as (l1 & ->). destruct (shape_t _ lv _ _ _ B2 ltac:(cbn; auto 8)) as (l2 & ->). cbn [okp] in B2. hdi P B2. eapply b_plain; eassumption.
  - (* UCodes *) unfold codes in E. destruct (sym s =? 35) eqn:C1.
    + eqs. rewrite (hd _ _ C1) by lia. destruct (sym (get s) =? 19) eqn:C2.
      * eqs. bd E l s2 K. fin E. destruct (IH _ _ _ _ K N) as (A & B). split; [exact A|]. destruct (shape_c _ _ _ B) as (l' & ->). rewrite (hd _ _ C2) by lia. apply k_more. exact B.
      * destruct (sym (get s) =? 35) eqn:C3. { bd E l s2 K. fin E. destruct (IH _ _ _ _ K N) as (A & B). discriminate A. }
        fin E. split; [exact N|]. constructor.
    + destruct (sym s =? 19) eqn:C2.
      * eqs. bd E l s2 K. fin E. destruct (IH _ _ _ _ K N) as (A & B). split; [exact A|]. destruct (shape_c _ _ _ B) as (l' & ->). rewrite (hd _ _ C2) by lia. apply k_comma. exact B.
      * rewrite C1 in E. fin E. split; [exact N|]. constructor.
  - (* UImports *) unfold imports in E. cbv zeta in E. destruct (sym s =? 38) eqn:C1.
    + eqs. match type of E with (let (h, s1) := ?c in _) = _ => destruct c as [h s1] eqn:M end.
      assert (Z : snd s1 = [] -> snd s = [] /\ exists i, h = [i] /\ Import (fst s) (fst s1) i).
      { intros N1. rewrite (hd _ _ C1) by lia. destruct (sym (get s) =? 34) eqn:C2; [destruct (sym (get (get s)) =? 38) eqn:C3|]; eqs; fin M.
        - split; [exact N1|]. eexists. split; [reflexivity|]. rewrite (hd _ _ C2) by lia. rewrite (hd _ _ C3) by lia. constructor.
        - discriminate N1.
        - split; [exact N1|]. eexists. split; [reflexivity|]. constructor. }
      destruct (sym s1 =? 19) eqn:C2.
      * eqs. bd E l s2 K. fin E. destruct (IH _ _ _ _ K N) as (A & B). destruct (Z A) as (A1 & i & -> & B1). split; [exact A1|]. destruct (shape_m _ _ _ B) as (l' & ->). hdi C2 B1. eapply m_more; eassumption.
      * destruct (sym s1 =? 38) eqn:C3. { bd E l s2 K. fin E. destruct (IH _ _ _ _ K N) as (A & B). discriminate A. }
        fin E. destruct (Z N) as (A1 & i & -> & B1). split; [exact A1|]. constructor. exact B1.
    + exfalso. replace (sym (err 38 s)) with (sym s) in E by reflexivity. rewrite C1 in E. destruct (sym s =? 19); [bd E l s2 K; fin E; destruct (IH _ _ _ _ K N) as (A & B); discriminate A|]. fin E. discriminate N.
Qed.
End Step.

Lemma usound : forall f u s x s', uparse f u s = Ok (x, s') -> snd s' = [] -> snd s = [] /\ okp u s s' x.
Proof. induction f as [|f IH]; intros u s x s' E N; [discriminate E|]. exact (step_ok f IH _ _ _ _ E N). Qed.

Lemma module_rest_sound : forall x l s t s', module_rest ismod isvar isstd istproc x l s = Ok (t, s') -> snd s' = [] ->
  exists b u rest, snd s = [] /\ t = TModule x l b /\ fst s' = (18, u) :: rest /\ D (UBlock 0) (fst s) ((38, x) :: (18, u) :: rest) b.
Proof.
  intros x l s t s' E N. unfold module_rest in E. destruct (snd s) eqn:NS; [|fin E; congruence]. bd E b s1 K. fin E.
  destruct (sym s1 =? 38) eqn:C1.
  2: { destruct (sym (err 38 s1) =? 18); cbn in N; discriminate N. }
  eqs. destruct (val s1 =? x) eqn:C2.
  2: { destruct (sym (get (err 4 s1)) =? 18); cbn in N; discriminate N. }
  apply Z.eqb_eq in C2. destruct (sym (get s1) =? 18) eqn:C3; [|discriminate N]. eqs. destruct (usound _ _ _ _ _ K N) as (A & B). cbn [okp] in B. hdi C1 B. hdi C3 B.
  exists b, (val (get s1)), (fst (get (get s1))). split; [reflexivity|]. split; [reflexivity|]. split; [apply hd; [exact C3|lia]|]. subst x. exact B.
Qed.
Lemma module_sound : forall ts t rest, module ismod isvar isstd istproc ts = Ok (t, (rest, [])) -> Module_ ismod isvar isstd istproc ts rest t.
Proof.
  intros ts t rest E. unfold module in E. cbv zeta in E. set (s := (ts, []) : st) in *. destruct (sym s =? 63) eqn:C0.
  2: { exfalso. replace (sym (err 16 s)) with (sym s) in E by reflexivity. destruct (sym s =? 38); [|fin E].
       destruct (sym (check 39 (get (err 16 s))) =? 62).
       - bd E l s4 K. destruct (module_rest_sound _ _ _ _ _ E eq_refl) as (b & u & r & N & _). destruct (check_ok _ _ N) as (P & Q & R). destruct (usound _ _ _ _ _ K Q) as (A & _).
         destruct (check_ok _ _ A) as (_ & Z & _). discriminate Z.
       - destruct (module_rest_sound _ _ _ _ _ E eq_refl) as (b & u & r & N & _). destruct (check_ok _ _ N) as (_ & Z & _). discriminate Z. }
  eqs. destruct (sym (get s) =? 38) eqn:C1; [|fin E]. eqs. pose proof (hd _ _ C0 ltac:(lia)) as H0. pose proof (hd _ _ C1 ltac:(lia)) as H1. replace ts with (fst s) by reflexivity. rewrite H0, H1.
  destruct (sym (check 39 (get (get s))) =? 62) eqn:C2.
  - eqs. bd E l s4 K. destruct (module_rest_sound _ _ _ _ _ E eq_refl) as (b & u & r & N & -> & Z & B). destruct (check_ok _ _ N) as (P & Q & R). rewrite R in *. destruct (usound _ _ _ _ _ K Q) as (A & B1).
    destruct (check_ok _ _ A) as (P2 & Q2 & R2). rewrite R2 in *. cbn [fst] in Z. subst rest. rewrite (hd _ _ P2) by lia. rewrite (hd _ _ C2) by lia. destruct (shape_m _ _ _ B1) as (l' & ->).
    cbn [okp] in B1. hdi P B1. eapply module_import; eassumption.
  - destruct (module_rest_sound _ _ _ _ _ E eq_refl) as (b & u & r & N & -> & Z & B). destruct (check_ok _ _ N) as (P & Q & R). rewrite R in *. cbn [fst] in Z. subst rest. rewrite (hd _ _ P) by lia. apply module_plain. exact B.
Qed.
End Sound.
