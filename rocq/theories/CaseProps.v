(** CASE statements accept disjoint labels and select by them (C46). *)
From Coq Require Import Sorting.Sorted Permutation.
From Verif Require Import Base ArrZ OpsProps LitModel LitProps CaseModel.

(** ** What labels mean *)
Definition low (l : label) : Z := CaseModel.value (fst l).
Definition high (l : label) : Z := match snd l with Some y => CaseModel.value y | None => low l end.
Definition contains (l : label) (v : Z) : Prop := low l <= v <= high l.
Definition disjoint (l l' : label) : Prop := forall v, ~ (contains l v /\ contains l' v).
(** The label is a constant of the form of the case expression; integers are within the range of its type. *)
Definition typed (t : form) (l : label) : Prop :=
  match t, fst l, snd l with
  | Int size, CInt n, None | Int size, CInt n, Some (CInt _) => in_int (8 * size) n
  | Char, CChar _, None | Char, CChar _, Some (CChar _) => True
  | _, _, _ => False
  end.
Definition case_type (t : form) : Prop := match t with Int size => int_size size | Char => True end.
(** The labels are 32-bit values no two of which are 2^31 or more apart. *)
Definition moderate (ls : list label) : Prop := forall l l', In l ls -> In l' ls ->
  in_int 32 (low l) /\ in_int 32 (high l) /\ in_int 32 (low l - low l') /\ in_int 32 (high l - low l') /\ in_int 32 (low l - high l') /\ in_int 32 (high l - high l').

(** ** Entering a label *)
Definition before (a b : Z * Z) : Prop := snd a < fst b.
Lemma set_nth_app : forall (A : Type) (P : list A) j R x, set_nth (length P) x (P ++ j :: R) = P ++ x :: R.
Proof. induction P as [| p P IH]; intros j R x; cbn [length set_nth app]; [reflexivity |]. f_equal. apply IH. Qed.
Lemma enter_spec : forall P j R x y, exists P1 P2, P = P1 ++ P2 /\ fst (enter (length P) (P ++ j :: R) x y) = P1 ++ (x, y) :: P2 ++ R /\ Forall (fun e => y < fst e) P2 /\
  ((P1 = [] /\ snd (enter (length P) (P ++ j :: R) x y) = true) \/
   exists Q lo hi, P1 = Q ++ [(lo, hi)] /\ lo <= y /\ snd (enter (length P) (P ++ j :: R) x y) = negb (hi >=? x)).
Proof.
  intros P. induction P as [| [lo hi] P IH] using rev_ind; intros j R x y.
  - exists [], []. cbn. repeat split; auto.
  - rewrite app_length. cbn [length]. replace (length P + 1)%nat with (S (length P)) by lia. cbn [enter]. rewrite <- app_assoc. cbn [app]. rewrite app_nth2 by lia. rewrite Nat.sub_diag. cbn [nth].
    assert (ES : forall z, set_nth (S (length P)) z (P ++ (lo, hi) :: j :: R) = P ++ (lo, hi) :: z :: R).
    { intros z. replace (S (length P)) with (length (P ++ [(lo, hi)])) by (rewrite app_length; cbn; lia). change (P ++ (lo, hi) :: j :: R) with (P ++ [(lo, hi)] ++ j :: R). rewrite app_assoc, set_nth_app, <- app_assoc. reflexivity. }
    rewrite !ES. destruct (lo <=? y) eqn:E.
    + exists (P ++ [(lo, hi)]), []. rewrite app_nil_r. cbn [fst snd app]. rewrite <- app_assoc. cbn [app]. repeat split; auto. right. exists P, lo, hi. split; [reflexivity |]. split; [lia | reflexivity].
    + destruct (IH (lo, hi) ((lo, hi) :: R) x y) as (P1 & P2 & E1 & E2 & E3 & E4). exists P1, (P2 ++ [(lo, hi)]). split; [rewrite E1, <- app_assoc; reflexivity |]. split; [rewrite E2, <- app_assoc; reflexivity |].
      split; [apply Forall_app; split; [exact E3 | constructor; [cbn; lia | constructor]] |]. exact E4.
Qed.
Lemma ss_app : forall P1 P2, StronglySorted before (P1 ++ P2) <-> StronglySorted before P1 /\ StronglySorted before P2 /\ (forall a b, In a P1 -> In b P2 -> before a b).
Proof.
  induction P1 as [| p P1 IH]; intros P2; cbn [app].
  - split; [intros H; split; [constructor |]; split; [exact H | intros a b []] | tauto].
  - split.
    + intros H. inversion H as [| ? ? H1 H2]; subst. apply IH in H1 as (A & B & C). apply Forall_app in H2 as [H2 H3]. split; [constructor; assumption |]. split; [exact B |].
      intros a b [<- | Ha] Hb; [eapply (proj1 (Forall_forall _ _) H3); exact Hb | apply C; assumption].
    + intros (A & B & C). inversion A as [| ? ? A1 A2]; subst. constructor; [apply IH; split; [exact A1 |]; split; [exact B |]; intros a b Ha Hb; apply C; [right; exact Ha | exact Hb] |].
      apply Forall_app. split; [exact A2 |]. apply Forall_forall. intros b Hb. apply C; [left; reflexivity | exact Hb].
Qed.
Definition overlap (a b : Z * Z) : Prop := fst a <= snd b /\ fst b <= snd a.
Lemma enter_sorted : forall P j R x y, StronglySorted before P -> Forall (fun e => fst e <= snd e) P -> x <= y -> exists P', fst (enter (length P) (P ++ j :: R) x y) = P' ++ R /\ Permutation P' ((x, y) :: P) /\
  ((snd (enter (length P) (P ++ j :: R) x y) = true /\ StronglySorted before P' /\ (forall e, In e P -> ~ overlap (x, y) e)) \/
   (snd (enter (length P) (P ++ j :: R) x y) = false /\ exists e, In e P /\ overlap (x, y) e)).
Proof.
  intros P j R x y S F L. destruct (enter_spec P j R x y) as (P1 & P2 & E1 & E2 & E3 & E4). exists (P1 ++ (x, y) :: P2). split; [rewrite E2, <- app_assoc; reflexivity |].
  split; [rewrite E1; symmetry; apply Permutation_middle |]. rewrite E1 in S. apply ss_app in S as (S1 & S2 & S3). rewrite Forall_forall in E3, F.
  assert (K : (forall e, In e P1 -> snd e < x) -> StronglySorted before (P1 ++ (x, y) :: P2) /\ (forall e, In e P -> ~ overlap (x, y) e)).
  { intros H. split.
    - apply ss_app. split; [exact S1 |]. split; [constructor; [exact S2 | apply Forall_forall; intros e He; unfold before; cbn [snd]; apply E3, He] |].
      intros a b Ha [<- | Hb]; [unfold before; cbn [fst]; apply H, Ha | apply S3; assumption].
    - intros e He [O1 O2]. cbn [fst snd] in *. rewrite E1 in He. apply in_app_or in He as [He | He]; [specialize (H e He); lia | specialize (E3 e He); lia]. }
  destruct E4 as [[-> E4] | (Q & lo & hi & -> & H1 & E4)].
  - left. split; [exact E4 |]. apply K. intros e [].
  - rewrite E4. destruct (hi >=? x) eqn:C; cbn [negb].
    + right. split; [reflexivity |]. exists (lo, hi). split; [rewrite E1; apply in_or_app; left; apply in_or_app; right; left; reflexivity | unfold overlap; cbn; lia].
    + left. split; [reflexivity |]. apply K. apply ss_app in S1 as (_ & _ & S4). intros e He. apply in_app_or in He as [He | [<- | []]]; [| cbn; lia].
      specialize (S4 e (lo, hi) He (or_introl eq_refl)). unfold before in S4. cbn [fst] in S4. assert (In (lo, hi) P) by (rewrite E1; apply in_or_app; left; apply in_or_app; right; left; reflexivity). specialize (F _ H). cbn in F. lia.
Qed.

(** ** A list of labels *)
Definition rng (l : label) : Z * Z := (low l, high l).
Lemma label_type_spec : forall t c, case_type t -> in_int 64 (CaseModel.value c) -> exists b, label_type t c = Ok b /\ (b = true <-> match t, c with Int size, CInt n => in_int (8 * size) n | Char, CChar _ => True | _, _ => False end).
Proof.
  intros t c HT HV. destruct c as [c | n], t as [| size]; cbn [label_type]; try (eexists; split; [reflexivity |]; intuition congruence).
  cbn [CaseModel.value] in HV. destruct (C41_smallest n HV) as (s & -> & S1 & S2 & S3). rewrite bind_ok. eexists. split; [reflexivity |]. destruct (Z.ltb_spec size s) as [H | H]; cbn [negb].
  - split; [discriminate |]. intros F. specialize (S3 size HT F). lia.
  - split; [intros _ | auto]. unfold fits in S2. clear S3. cbn [case_type] in HT. unfold in_int in *. unfold int_size in *. assert (2 ^ (8 * s - 1) <= 2 ^ (8 * size - 1)) by (apply Z.pow_le_mono_r; lia). lia.
Qed.
Lemma bounds_spec : forall l, in_int 32 (low l) -> in_int 32 (high l) -> exists y ok, bounds l = (low l, y, ok) /\ (y = high l \/ y = low l) /\ low l <= y /\
  (ok = true <-> low l <= high l /\ match fst l, snd l with CInt _, Some (CChar _) | CChar _, Some (CInt _) => False | _, _ => True end) /\ (ok = true -> y = high l).
Proof.
  intros [x oy] H1 H2. unfold bounds, high, low, Longint in *. cbn [fst snd] in *. rewrite (wrap_s_id 32 _ eq_refl H1). destruct oy as [y |].
  - rewrite (wrap_s_id 32 _ eq_refl H2). destruct (Z.ltb_spec (CaseModel.value y) (CaseModel.value x)).
    + do 2 eexists. split; [reflexivity |]. split; [tauto |]. split; [lia |]. split; [| discriminate]. split; [discriminate |]. intros [? _]. lia.
    + do 2 eexists. split; [reflexivity |]. split; [tauto |]. split; [lia |]. split; [| tauto]. destruct x, y; intuition (try discriminate; auto).
  - do 2 eexists. split; [reflexivity |]. split; [tauto |]. split; [lia |]. split; [| tauto]. split; [intros _; split; [lia | destruct x; exact I] | auto].
Qed.
Definition entered (V : list label) (e : Z * Z) : Prop := exists l l', In l V /\ In l' V /\ (fst e = low l) /\ (snd e = low l' \/ snd e = high l').
Definition has_room (tab : table) (n : Z) (E : table) : Prop := exists R, tab = E ++ R /\ zlen E = n /\ zlen tab = 128.
Lemma room : forall tab n E, has_room tab n E -> n < 128 -> exists j R, tab = E ++ j :: R /\ Z.to_nat n = length E.
Proof.
  intros tab n E (R & A & B & C) H. destruct R as [| j R]; [rewrite app_nil_r in A; subst; lia |]. exists j, R. split; [exact A |]. unfold zlen in B. lia.
Qed.
Lemma enter_length : forall i tab x y, length (fst (enter i tab x y)) = length tab.
Proof. induction i as [| i IH]; intros tab x y; cbn [enter]; [apply set_nth_length |]. destruct (nth i tab (0, 0)) as [lo hi]. destruct (lo <=? y); [apply set_nth_length |]. rewrite IH. apply set_nth_length. Qed.
(** Whatever the labels are, the loop ends and the table holds bounds of labels only. *)
Lemma labels_run : forall t V, case_type t -> (forall l, In l V -> in_int 32 (low l) /\ in_int 32 (high l)) -> forall ls, incl ls V -> forall n tab E, has_room tab n E -> Forall (entered V) E -> 0 <= n <= 128 ->
  exists n' tab' rs ok E', CaseLabelList t ls n tab = Ok (n', tab', rs, ok) /\ has_room tab' n' E' /\ Forall (entered V) E' /\ n <= n' <= 128.
Proof.
  intros t V HT HV. induction ls as [| l ls IH]; intros HI n tab E HR HE HN.
  - exists n, tab, [], true, E. cbn. split; [reflexivity |]. split; [exact HR |]. split; [exact HE |]. lia.
  - cbn [CaseLabelList]. destruct (HV l (HI l (or_introl eq_refl))) as [B1 B2]. destruct (label_type_spec t (fst l) HT) as (ok1 & -> & _).
    { fold (low l). unfold in_int in *. change (2 ^ (32 - 1)) with 2147483648 in B1. change (2 ^ (64 - 1)) with 9223372036854775808. lia. }
    rewrite bind_ok. destruct (bounds_spec l B1 B2) as (y & ok2 & -> & Y1 & _). unfold MaxCases. destruct (n <? 128) eqn:C.
    + destruct (room tab n E HR ltac:(lia)) as (j & R & -> & EL). rewrite EL. destruct (enter_spec E j R (low l) y) as (P1 & P2 & E1 & E2 & _).
      destruct (enter (length E) (E ++ j :: R) (low l) y) as [tab1 ok3] eqn:EE. cbn [fst] in E2.
      destruct (IH (fun z Hz => HI z (or_intror Hz)) (n + 1) tab1 (P1 ++ (low l, y) :: P2)) as (n' & tab' & rs & ok & E' & -> & K1 & K2 & K3).
      * exists R. split; [rewrite E2, <- app_assoc; reflexivity |]. destruct HR as (R' & _ & A2 & A3). split.
        -- rewrite E1 in A2. rewrite zlen_app in *. rewrite zlen_cons. lia.
        -- pose proof (enter_length (length E) (E ++ j :: R) (low l) y) as Hl. rewrite EE in Hl. cbn [fst] in Hl. unfold zlen in *. congruence.
      * rewrite E1 in HE. apply Forall_app in HE as [F1 F2]. apply Forall_app. split; [exact F1 |]. constructor; [| exact F2].
        exists l, l. cbn [fst snd]. pose proof (HI l (or_introl eq_refl)). tauto.
      * lia.
      * rewrite bind_ok. do 5 eexists. split; [reflexivity |]. split; [exact K1 |]. split; [exact K2 |]. lia.
    + destruct (IH (fun z Hz => HI z (or_intror Hz)) n tab E HR HE HN) as (n' & tab' & rs & ok & E' & -> & K1 & K2 & K3). rewrite bind_ok. do 5 eexists. split; [reflexivity |]. split; [exact K1 |]. split; [exact K2 |]. lia.
Qed.
Lemma disjoint_overlap : forall l l', low l <= high l -> low l' <= high l' -> (disjoint l l' <-> ~ overlap (rng l) (rng l')).
Proof.
  intros l l' H H'. unfold disjoint, contains, overlap, rng. cbn [fst snd]. split.
  - intros D [O1 O2]. apply (D (Z.max (low l) (low l'))). lia.
  - intros D v [C1 C2]. apply D. lia.
Qed.
(** From a table of disjoint ranges: no error means that the labels are right, and the table is then that of all of them. *)
Lemma labels_exact : forall t V, case_type t -> (forall l, In l V -> in_int 32 (low l) /\ in_int 32 (high l)) -> forall ls, incl ls V -> forall n tab E D, has_room tab n E -> Forall (entered V) E -> 0 <= n <= 128 ->
  StronglySorted before E -> Forall (fun e => fst e <= snd e) E -> Permutation E (map rng D) -> Forall (fun l => low l <= high l) D ->
  exists n' tab' rs ok, CaseLabelList t ls n tab = Ok (n', tab', rs, ok) /\
    (ok = true <-> Forall (typed t) ls /\ Forall (fun l => low l <= high l) ls /\ n + zlen ls <= 128 /\ ForallOrdPairs disjoint ls /\ (forall l d, In l ls -> In d D -> disjoint l d)) /\
    (ok = true -> n' = n + zlen ls /\ rs = map rng ls /\ exists E', has_room tab' n' E' /\ StronglySorted before E' /\ Permutation E' (map rng (ls ++ D))).
Proof.
  intros t V HT HV. induction ls as [| l ls IH]; intros HI n tab E D HR HE HN HS HO HP HD.
  - exists n, tab, [], true. cbn [CaseLabelList map app]. rewrite zlen_nil. split; [reflexivity |]. split.
    + split; [intros _ | auto]. split; [constructor |]. split; [constructor |]. split; [lia |]. split; [constructor |]. intros l d [].
    + intros _. split; [lia |]. split; [reflexivity |]. exists E. auto.
  - cbn [CaseLabelList]. destruct (HV l (HI l (or_introl eq_refl))) as [B1 B2]. destruct (label_type_spec t (fst l) HT) as (ok1 & -> & K1).
    { fold (low l). unfold in_int in *. change (2 ^ (32 - 1)) with 2147483648 in B1. change (2 ^ (64 - 1)) with 9223372036854775808. lia. }
    rewrite bind_ok. destruct (bounds_spec l B1 B2) as (y & ok2 & -> & Y1 & Y2 & Y3 & Y4). unfold MaxCases.
    assert (TY : ok1 && ok2 = true <-> typed t l /\ low l <= high l).
    { rewrite andb_true_iff, K1, Y3. unfold typed. destruct l as [[c | n0] [[c' | n'] |]], t; cbn [fst snd]; tauto. }
    destruct (n <? 128) eqn:C.
    + destruct (room tab n E HR ltac:(lia)) as (j & R & -> & EL). rewrite EL. destruct (enter_sorted E j R (low l) y HS HO Y2) as (P' & E1 & E2 & E3). destruct (enter_spec E j R (low l) y) as (P1 & P2 & X1 & X2 & _).
      destruct (enter (length E) (E ++ j :: R) (low l) y) as [tab1 ok3] eqn:EE. cbn [fst snd] in *.
      assert (LE : zlen P' = n + 1). { unfold zlen. rewrite (Permutation_length E2). cbn [length]. lia. }
      assert (HR1 : has_room tab1 (n + 1) P').
      { exists R. split; [exact E1 |]. split; [exact LE |]. destruct HR as (R' & _ & A2 & A3). pose proof (enter_length (length E) (E ++ j :: R) (low l) y) as Hl. rewrite EE in Hl. cbn [fst] in Hl. unfold zlen in *. congruence. }
      assert (HE1 : Forall (entered V) P').
      { eapply Permutation_Forall; [symmetry; exact E2 |]. constructor; [| exact HE]. exists l, l. cbn [fst snd]. pose proof (HI l (or_introl eq_refl)). tauto. }
      destruct (ok1 && ok2) eqn:OK; [destruct ok3 |].
      * (* no error so far *)
        destruct TY as [TY _]. specialize (TY eq_refl) as [T1 T2]. assert (Ey : y = high l) by (apply Y4; apply andb_true_iff in OK; tauto). subst y.
        destruct E3 as [(_ & S' & O') | (Hf & _)]; [| discriminate].
        destruct (IH (fun z Hz => HI z (or_intror Hz)) (n + 1) tab1 P' (l :: D) HR1 HE1 ltac:(lia) S') as (n' & tab' & rs & ok & -> & Q1 & Q2).
        { eapply Permutation_Forall; [symmetry; exact E2 |]. constructor; [exact Y2 | exact HO]. }
        { rewrite E2. cbn [map]. apply perm_skip, HP. }
        { constructor; assumption. }
        rewrite bind_ok. do 4 eexists. split; [reflexivity |]. cbn [andb]. rewrite zlen_cons. split.
        -- rewrite Q1. split.
           ++ intros (A1 & A2 & A3 & A4 & A5). split; [constructor; assumption |]. split; [constructor; assumption |]. split; [lia |]. split.
              ** constructor; [apply Forall_forall; intros l' Hl' v [C1 C2]; apply (A5 l' l Hl' (or_introl eq_refl) v); auto | exact A4].
              ** intros l' d [<- | Hl'] Hd; [| apply A5; [exact Hl' | right; exact Hd]]. rewrite Forall_forall in HD. apply disjoint_overlap; [exact T2 | apply HD, Hd |].
                 apply O'. eapply Permutation_in; [symmetry; exact HP |]. apply in_map, Hd.
           ++ intros (A1 & A2 & A3 & A4 & A5). inversion A1; subst. inversion A2; subst. inversion A4 as [| ? ? A6 A7]; subst. split; [assumption |]. split; [assumption |]. split; [lia |]. split; [assumption |].
              intros l' d Hl' [<- | Hd]; [rewrite Forall_forall in A6; intros v [C1 C2]; apply (A6 l' Hl' v); auto | apply A5; [right; exact Hl' | exact Hd]].
        -- intros H. destruct (Q2 H) as (Z1 & Z2 & E' & Z3 & Z4 & Z5). split; [lia |]. split; [cbn [map]; f_equal; [unfold rng; f_equal; exact Z2 | exact Z2] || (rewrite Z2; reflexivity) |]. exists E'. split; [exact Z3 |]. split; [exact Z4 |].
           rewrite Z5. cbn [map app]. rewrite !map_app. cbn [map]. symmetry. apply Permutation_middle.
      * (* overlap *)
        destruct (labels_run t V HT HV ls (fun z Hz => HI z (or_intror Hz)) (n + 1) tab1 P' HR1 HE1 ltac:(lia)) as (n' & tab' & rs & ok & E' & -> & _). rewrite bind_ok. do 4 eexists. split; [reflexivity |]. cbn [andb].
        split; [| discriminate]. split; [discriminate |]. intros (A1 & A2 & _ & _ & A5). exfalso. destruct TY as [TY _]. specialize (TY eq_refl) as [T1 T2]. assert (Ey : y = high l) by (apply Y4; apply andb_true_iff in OK; tauto). subst y.
        destruct E3 as [(Hf & _) | (_ & e & He & O)]; [discriminate |]. eapply Permutation_in in He; [| exact HP]. apply in_map_iff in He as (d & <- & Hd). rewrite Forall_forall in HD.
        apply (proj1 (disjoint_overlap l d T2 (HD d Hd)) (A5 l d (or_introl eq_refl) Hd)). exact O.
      * destruct (labels_run t V HT HV ls (fun z Hz => HI z (or_intror Hz)) (n + 1) tab1 P' HR1 HE1 ltac:(lia)) as (n' & tab' & rs & ok & E' & -> & _). rewrite bind_ok. do 4 eexists. split; [reflexivity |]. cbn [andb].
        split; [| discriminate]. split; [discriminate |]. intros (A1 & A2 & _). inversion A1; subst. inversion A2; subst. apply TY. auto.
    + destruct (labels_run t V HT HV ls (fun z Hz => HI z (or_intror Hz)) n tab E HR HE HN) as (n' & tab' & rs & ok & E' & -> & _). rewrite bind_ok. do 4 eexists. split; [reflexivity |]. rewrite andb_false_r. cbn [andb].
      split; [| discriminate]. split; [discriminate |]. rewrite zlen_cons. pose proof (zlen_nonneg _ ls). intros (_ & _ & A3 & _). lia.
Qed.

(** ** The statement *)
Lemma labels_app : forall t a b n tab, CaseLabelList t (a ++ b) n tab =
  let* r := CaseLabelList t a n tab in let '(n, tab, rs, ok) := r in let* q := CaseLabelList t b n tab in let '(n, tab, rs', ok') := q in Ok (n, tab, rs ++ rs', ok && ok').
Proof.
  intros t. induction a as [| l a IH]; intros b n tab; cbn [app CaseLabelList].
  - rewrite bind_ok. destruct (CaseLabelList t b n tab) as [[[[n' tab'] rs] ok] | | |]; reflexivity.
  - destruct (label_type t (fst l)) as [ok1 | | |]; try reflexivity. rewrite !bind_ok. destruct (bounds l) as [[x y] ok2].
    destruct (if n <? MaxCases then let '(tab0, ok) := enter (Z.to_nat n) tab x y in (tab0, n + 1, ok) else (tab, n, false)) as [[tab1 n1] ok3]. rewrite IH.
    destruct (CaseLabelList t a n1 tab1) as [[[[n2 tab2] rs] ok4] | | |]; try reflexivity. rewrite !bind_ok. destruct (CaseLabelList t b n2 tab2) as [[[[n3 tab3] rs'] ok5] | | |]; try reflexivity. rewrite !bind_ok. cbn [app].
    rewrite !andb_assoc. reflexivity.
Qed.
Lemma labels_count : forall t ls n tab n' tab' rs ok, CaseLabelList t ls n tab = Ok (n', tab', rs, ok) -> length rs = length ls.
Proof.
  intros t. induction ls as [| l ls IH]; intros n tab n' tab' rs ok H; cbn [CaseLabelList] in H; [injection H as <- <- <- <-; reflexivity |].
  destruct (label_type t (fst l)); try discriminate. rewrite bind_ok in H. destruct (bounds l) as [[x y] ok2].
  destruct (if n <? MaxCases then let '(tab0, ok) := enter (Z.to_nat n) tab x y in (tab0, n + 1, ok) else (tab, n, false)) as [[tab1 n1] ok3].
  destruct (CaseLabelList t ls n1 tab1) as [[[[n2 tab2] rs2] ok4] | | |] eqn:E; try discriminate. rewrite bind_ok in H. injection H as <- <- <- <-. cbn [length]. f_equal. eapply IH, E.
Qed.
Lemma branches_flat : forall t bs n tab n' tab' rs ok, CaseLabelList t (concat bs) n tab = Ok (n', tab', rs, ok) ->
  exists rss, branches t bs n tab = Ok (n', tab', rss, ok) /\ concat rss = rs /\ Forall2 (fun b r => length r = length b) bs rss.
Proof.
  intros t. induction bs as [| b bs IH]; intros n tab n' tab' rs ok H; cbn [concat] in H.
  - cbn [CaseLabelList] in H. injection H as <- <- <- <-. exists []. cbn. auto.
  - rewrite labels_app in H. cbn [branches]. destruct (CaseLabelList t b n tab) as [[[[n1 tab1] r1] ok1] | | |] eqn:E1; try discriminate. rewrite bind_ok in H |- *.
    destruct (CaseLabelList t (concat bs) n1 tab1) as [[[[n2 tab2] r2] ok2] | | |] eqn:E2; try discriminate. rewrite bind_ok in H. injection H as <- <- <- <-.
    destruct (IH _ _ _ _ _ _ E2) as (rss & -> & <- & F). rewrite bind_ok. exists (r1 :: rss). split; [reflexivity |]. split; [reflexivity |]. constructor; [eapply labels_count, E1 | exact F].
Qed.
Lemma concat_map_inj : forall (bs : list (list label)) rss, concat rss = map rng (concat bs) -> Forall2 (fun b r => length r = length b) bs rss -> rss = map (map rng) bs.
Proof.
  intros bs rss H F. induction F as [| b r bs rss L F IH]; [reflexivity |]. cbn [concat map] in *. rewrite map_app in H.
  assert (L' : length r = length (map rng b)) by (rewrite map_length; exact L). revert H L'. generalize (map rng b) as m. intros m H L'.
  assert (r = m /\ concat rss = map rng (concat bs)) as [-> H2]; [| f_equal; apply IH, H2].
  clear - H L'. revert r m L' H. induction r as [| x r IHr]; intros [| y m] L' H; cbn [length app] in *; try lia; [auto |]. injection H as -> H. destruct (IHr m ltac:(lia) H) as [-> ->]. auto.
Qed.
Lemma ends : forall E, StronglySorted before E -> Forall (fun e => fst e <= snd e) E -> E <> [] -> forall e, In e E -> fst (nth 0 E (0, 0)) <= fst e /\ snd e <= snd (nth (length E - 1) E (0, 0)).
Proof.
  intros E S O NE e He. rewrite Forall_forall in O. split.
  - destruct E as [| a E]; [congruence |]. cbn [nth]. destruct He as [-> | He]; [lia |]. inversion S as [| ? ? _ F]; subst. rewrite Forall_forall in F. specialize (F e He). unfold before in F. specialize (O a (or_introl eq_refl)). lia.
  - destruct E as [| a E _] using rev_ind; [congruence |]. rewrite app_length. cbn [length]. replace (length E + 1 - 1)%nat with (length E) by lia. rewrite app_nth2 by lia. rewrite Nat.sub_diag. cbn [nth].
    apply in_app_or in He as [He | [-> | []]]; [| lia]. apply ss_app in S as (_ & _ & S). specialize (S e a He (or_introl eq_refl)). unfold before in S. assert (K : In a (E ++ [a])) by (apply in_or_app; right; left; reflexivity). specialize (O a K). lia.
Qed.
(** The statement is accepted exactly if the labels are of the right type, ranges are not empty and disjoint, there are at most 128 and they span at most 512. *)
Theorem C46_accept : forall t bs tab, case_type t -> zlen tab = 128 -> moderate (concat bs) -> exists rss ok, CasePart t bs tab = Ok (rss, ok) /\
  (ok = true <-> Forall (typed t) (concat bs) /\ Forall (fun l => low l <= high l) (concat bs) /\ ForallOrdPairs disjoint (concat bs) /\
     zlen (concat bs) <= 128 /\ forall l l', In l (concat bs) -> In l' (concat bs) -> high l - low l' <= 512) /\
  (ok = true -> rss = map (map (fun l => (low l, high l))) bs).
Proof.
  intros t bs tab HT HL HM. set (ls := concat bs) in *. assert (HV : forall l, In l ls -> in_int 32 (low l) /\ in_int 32 (high l)) by (intros l Hl; destruct (HM l l Hl Hl) as (A & B & _); auto).
  assert (R0 : has_room tab 0 []) by (exists tab; rewrite zlen_nil; auto).
  destruct (labels_exact t ls HT HV ls (incl_refl ls) 0 tab [] [] R0 ltac:(constructor) ltac:(lia) ltac:(constructor) ltac:(constructor) ltac:(constructor) ltac:(constructor)) as (n & tab' & rs & ok & E & I1 & I2).
  destruct (labels_run t ls HT HV ls (incl_refl ls) 0 tab [] R0 ltac:(constructor) ltac:(lia)) as (n0 & tab0 & rs0 & ok0 & E' & E0 & RM & EN & LN). rewrite E in E0. injection E0 as <- <- <- <-.
  destruct (branches_flat t bs 0 tab n tab' rs ok E) as (rss & EB & EC & EF). unfold CasePart. rewrite EB, bind_ok.
  assert (I1' : ok = true <-> Forall (typed t) ls /\ Forall (fun l => low l <= high l) ls /\ zlen ls <= 128 /\ ForallOrdPairs disjoint ls).
  { rewrite I1. split; [intros (A & B & C & D & _); auto |]. intros (A & B & C & D). repeat split; auto. intros l d _ []. }
  assert (Hrss : ok = true -> rss = map (map rng) bs). { intros H. apply concat_map_inj; [| exact EF]. rewrite EC. apply I2, H. }
  destruct (n >? 0) eqn:EN0.
  - assert (HC : exists r, chk 32 (snd (nth (Z.to_nat (n - 1)) tab' (0, 0)) - fst (nth 0 tab' (0, 0))) = Ok r /\ r = snd (nth (Z.to_nat (n - 1)) tab' (0, 0)) - fst (nth 0 tab' (0, 0))).
    { destruct RM as (R & -> & RL & _). assert (NE : (length E' > 0)%nat) by (unfold zlen in RL; lia). rewrite !app_nth1 by (unfold zlen in RL; lia). rewrite Forall_forall in EN.
      destruct (EN (nth 0 E' (0, 0)) ltac:(apply nth_In; lia)) as (l1 & l1' & L1 & L1' & F1 & _). destruct (EN (nth (Z.to_nat (n - 1)) E' (0, 0)) ltac:(apply nth_In; unfold zlen in RL; lia)) as (l2 & l2' & L2 & L2' & _ & F2).
      exists (snd (nth (Z.to_nat (n - 1)) E' (0, 0)) - fst (nth 0 E' (0, 0))). split; [| reflexivity]. unfold chk. rewrite F1. destruct (HM l2' l1 L2' L1) as (_ & _ & M1 & M2 & _). destruct F2 as [-> | ->]; [rewrite (proj2 (in_intb_iff _ _) M1) | rewrite (proj2 (in_intb_iff _ _) M2)]; reflexivity. }
    destruct HC as (r & -> & Hr). rewrite bind_ok. exists rss. eexists. split; [reflexivity |]. split; [| intros H; apply Hrss; apply andb_true_iff in H; tauto].
    rewrite andb_true_iff, I1'. unfold MaxCaseRange. split.
    + intros [(A & B & C & D) H]. split; [exact A |]. split; [exact B |]. split; [exact D |]. split; [exact C |]. intros l l' Hl Hl'. assert (OK : ok = true) by (apply I1'; auto).
      destruct (I2 OK) as (N & _ & E2 & (R2 & T2 & L2 & _) & S2 & P2). rewrite app_nil_r in P2. assert (O2 : Forall (fun e => fst e <= snd e) E2).
      { eapply Permutation_Forall; [symmetry; exact P2 |]. apply Forall_forall. intros e He. apply in_map_iff in He as (d & <- & Hd). rewrite Forall_forall in B. apply B, Hd. }
      assert (NE : E2 <> []) by (intros ->; rewrite zlen_nil in L2; lia).
      assert (K1 : In (rng l) E2) by (eapply Permutation_in; [symmetry; exact P2 | apply in_map, Hl]). assert (K2 : In (rng l') E2) by (eapply Permutation_in; [symmetry; exact P2 | apply in_map, Hl']).
      destruct (ends E2 S2 O2 NE _ K1) as [_ G1]. destruct (ends E2 S2 O2 NE _ K2) as [G2 _]. cbn [fst snd rng] in G1, G2. rewrite T2 in Hr. unfold zlen in L2. rewrite !app_nth1 in Hr by lia. replace (length E2 - 1)%nat with (Z.to_nat (n - 1)) in G1 by lia. lia.
    + intros (A & B & D & C & H). assert (OK : ok = true) by (apply I1'; auto). split; [auto |]. destruct (I2 OK) as (N & _ & E2 & (R2 & T2 & L2 & _) & S2 & P2). rewrite app_nil_r in P2. rewrite T2 in Hr. unfold zlen in L2. rewrite !app_nth1 in Hr by lia.
      assert (K1 : In (nth (Z.to_nat (n - 1)) E2 (0, 0)) (map rng ls)) by (eapply Permutation_in; [exact P2 | apply nth_In; lia]). assert (K2 : In (nth 0 E2 (0, 0)) (map rng ls)) by (eapply Permutation_in; [exact P2 | apply nth_In; lia]).
      apply in_map_iff in K1 as (l1 & F1 & G1). apply in_map_iff in K2 as (l2 & F2 & G2). rewrite <- F1, <- F2 in Hr. cbn [fst snd rng] in Hr. specialize (H l1 l2 G1 G2). apply negb_true_iff. lia.
  - exists rss, ok. split; [reflexivity |]. split; [| exact Hrss]. rewrite I1'. split; [| tauto]. intros (A & B & C & D). split; [exact A |]. split; [exact B |]. split; [exact D |]. split; [exact C |]. intros l l' Hl _.
    assert (OK : ok = true) by (apply I1'; auto). destruct (I2 OK) as (N & _). destruct ls as [| l0 ls0]; [destruct Hl |]. rewrite zlen_cons in N. pose proof (zlen_nonneg _ ls0). lia.
Qed.
Lemma labels_spec : forall f lo hi, (Z.to_nat (hi - lo + 1) < f)%nat -> exists ls, labels f lo hi = Ok ls /\ (forall v, In v ls <-> lo <= v <= hi) /\ NoDup ls.
Proof.
  induction f as [| f IH]; intros lo hi H; [lia |]. cbn [labels]. destruct (lo <=? hi) eqn:E.
  - destruct (IH (lo + 1) hi ltac:(lia)) as (ls & -> & K & N). rewrite bind_ok. eexists. split; [reflexivity |]. split; [| constructor; [rewrite K; lia | exact N]]. intros v. cbn [In]. rewrite K. lia.
  - exists []. split; [reflexivity |]. split; [| constructor]. intros v. cbn [In]. lia.
Qed.
Lemma NoDup_app_intro : forall (a b : list Z), NoDup a -> NoDup b -> (forall v, In v a -> ~ In v b) -> NoDup (a ++ b).
Proof. induction a as [| x a IH]; intros b HA HB H; cbn [app]; [exact HB |]. inversion HA; subst. constructor; [rewrite in_app_iff; intros [K | K]; [contradiction | apply (H x (or_introl eq_refl) K)] |]. apply IH; auto. intros v Hv. apply H. right. exact Hv. Qed.
Lemma range_labels_spec : forall f b, (forall l, In l b -> (Z.to_nat (high l - low l + 1) < f)%nat) -> ForallOrdPairs disjoint b ->
  exists vs, range_labels f (map rng b) = Ok vs /\ (forall v, In v vs <-> exists l, In l b /\ contains l v) /\ NoDup vs.
Proof.
  intros f. induction b as [| l b IH]; intros HF HD; cbn [map range_labels].
  - exists []. split; [reflexivity |]. split; [| constructor]. intros v. split; [intros [] | intros (l & [] & _)].
  - unfold rng at 1. inversion HD as [| ? ? D1 D2]; subst. destruct (labels_spec f (low l) (high l) (HF l (or_introl eq_refl))) as (a & -> & A & AN). rewrite bind_ok.
    destruct (IH (fun z Hz => HF z (or_intror Hz)) D2) as (vs & -> & V & VN). rewrite bind_ok. eexists. split; [reflexivity |]. split.
    + intros v. rewrite in_app_iff, A, V. split; [intros [H | (l' & H1 & H2)]; [exists l; split; [left; reflexivity | exact H] | exists l'; split; [right; exact H1 | exact H2]] |].
      intros (l' & [<- | H1] & H2); [left; exact H2 | right; exists l'; auto].
    + apply NoDup_app_intro; [exact AN | exact VN |]. intros v Hv Hw. apply A in Hv. apply V in Hw as (l' & H1 & H2). rewrite Forall_forall in D1. apply (D1 l' H1 v). auto.
Qed.
Lemma fop_app : forall (a b : list label), ForallOrdPairs disjoint (a ++ b) -> ForallOrdPairs disjoint a /\ ForallOrdPairs disjoint b /\ (forall l l', In l a -> In l' b -> disjoint l l').
Proof.
  induction a as [| x a IH]; intros b H; cbn [app] in H; [split; [constructor |]; split; [exact H | intros l l' []] |]. inversion H as [| ? ? H1 H2]; subst. apply IH in H2 as (A & B & C). apply Forall_app in H1 as [H1 H3].
  split; [constructor; assumption |]. split; [exact B |]. intros l l' [<- | Hl] Hl'; [rewrite Forall_forall in H3; apply H3, Hl' | apply C; assumption].
Qed.
Lemma stat_spec : forall f bs, (forall l, In l (concat bs) -> (Z.to_nat (high l - low l + 1) < f)%nat) -> ForallOrdPairs disjoint (concat bs) ->
  exists sw, CaseStat f (map (map rng) bs) = Ok sw /\ Forall2 (fun b vs => forall v, In v vs <-> exists l, In l b /\ contains l v) bs sw /\ NoDup (concat sw).
Proof.
  intros f. induction bs as [| b bs IH]; intros HF HD; cbn [map CaseStat concat] in *.
  - exists []. split; [reflexivity |]. split; constructor.
  - apply fop_app in HD as (D1 & D2 & D3). destruct (range_labels_spec f b (fun l Hl => HF l (in_or_app _ _ _ (or_introl Hl))) D1) as (vs & -> & V & VN). rewrite bind_ok.
    destruct (IH (fun l Hl => HF l (in_or_app _ _ _ (or_intror Hl))) D2) as (sw & -> & S & SN). rewrite bind_ok. eexists. split; [reflexivity |]. split; [constructor; assumption |]. cbn [concat]. apply NoDup_app_intro; [exact VN | exact SN |].
    intros v Hv Hw. apply V in Hv as (l & L1 & L2). apply in_concat in Hw as (ws & W1 & W2).
    assert (exists l', In l' (concat bs) /\ contains l' v) as (l' & L3 & L4).
    { clear - S W1 W2. induction S as [| b vs bs sw V S IH]; [destruct W1 |]. destruct W1 as [-> | W1].
      - apply V in W2 as (l & A & B). exists l. split; [cbn [concat]; apply in_or_app; left; exact A | exact B].
      - destruct (IH W1) as (l & A & B). exists l. split; [cbn [concat]; apply in_or_app; right; exact A | exact B]. }
    apply (D3 l l' L1 L3 v). auto.
Qed.
Lemma existsb_in : forall v vs, existsb (Z.eqb v) vs = true <-> In v vs.
Proof. intros v vs. rewrite existsb_exists. split; [intros (x & H & E); apply Z.eqb_eq in E; subst; exact H | intros H; exists v; split; [exact H | apply Z.eqb_refl]]. Qed.
Lemma switch_spec : forall v bs sw, Forall2 (fun b vs => forall v, In v vs <-> exists l, In l b /\ contains l v) bs sw -> forall k,
  (forall j, switch v sw k = Some j -> exists i b l, j = (k + i)%nat /\ nth_error bs i = Some b /\ In l b /\ contains l v) /\
  (switch v sw k = None -> forall b l, In b bs -> In l b -> ~ contains l v).
Proof.
  intros v bs sw F. induction F as [| b vs bs sw V F IH]; intros k; cbn [switch].
  - split; [discriminate |]. intros _ b l [].
  - destruct (existsb (Z.eqb v) vs) eqn:E.
    + split; [| discriminate]. intros j H. injection H as <-. apply existsb_in, V in E as (l & L1 & L2). exists 0%nat, b, l. rewrite Nat.add_0_r. auto.
    + destruct (IH (S k)) as [A B]. split.
      * intros j H. destruct (A j H) as (i & b' & l & E1 & E2 & E3). exists (S i), b', l. split; [lia |]. auto.
      * intros H b' l [<- | Hb] Hl C; [| apply (B H b' l Hb Hl C)]. assert (In v vs) by (apply V; exists l; auto). apply existsb_in in H0. congruence.
Qed.
(** The switch statement written for an accepted CASE statement has no label twice, and selects for each value the branch with a label that contains it, which is unique, or
    the default if there is none. *)
Theorem C46_select : forall t bs tab rss, case_type t -> zlen tab = 128 -> moderate (concat bs) -> CasePart t bs tab = Ok (rss, true) ->
  exists sw, CaseStat 514 rss = Ok sw /\ NoDup (concat sw) /\ forall v,
    (forall k, switch v sw 0 = Some k <-> exists b l, nth_error bs k = Some b /\ In l b /\ contains l v) /\
    (switch v sw 0 = None <-> forall b l, In b bs -> In l b -> ~ contains l v).
Proof.
  intros t bs tab rss HT HL HM H. destruct (C46_accept t bs tab HT HL HM) as (rss' & ok & E & [I1 _] & I2). rewrite E in H. injection H as -> ->. specialize (I1 eq_refl) as (_ & _ & D & _ & R). rewrite (I2 eq_refl).
  destruct (stat_spec 514 bs) as (sw & ES & F & N).
  { intros l Hl. specialize (R l l Hl Hl). lia. }
  { exact D. }
  exists sw. change (map (map (fun l => (low l, high l))) bs) with (map (map rng) bs). split; [exact ES |]. split; [exact N |]. intros v. destruct (switch_spec v bs sw F 0) as [A B].
  assert (U : forall i j b b' l l', nth_error bs i = Some b -> nth_error bs j = Some b' -> In l b -> In l' b' -> contains l v -> contains l' v -> i = j).
  { clear - D. induction bs as [| c bs IH]; intros i j b b' l l' Hi Hj Hl Hl' C C'; [destruct i; discriminate |]. cbn [concat] in D. apply fop_app in D as (_ & D2 & D3). destruct i as [| i], j as [| j]; cbn [nth_error] in *; [reflexivity | | |].
    - injection Hi as ->. exfalso. apply (D3 l l' Hl) with (v := v); [| auto]. apply in_concat. exists b'. split; [eapply nth_error_In, Hj | exact Hl'].
    - injection Hj as ->. exfalso. apply (D3 l' l Hl') with (v := v); [| auto]. apply in_concat. exists b. split; [eapply nth_error_In, Hi | exact Hl].
    - f_equal. eapply IH; eassumption. }
  split.
  - intros k. split.
    + intros H. destruct (A k H) as (i & b & l & -> & E1 & E2 & E3). exists b, l. auto.
    + intros (b & l & E1 & E2 & E3). destruct (switch v sw 0) as [j |] eqn:EJ; [| exfalso; apply (B eq_refl b l); [eapply nth_error_In, E1 | exact E2 | exact E3]].
      destruct (A j eq_refl) as (i & b' & l' & -> & F1 & F2 & F3). f_equal. cbn [Nat.add]. symmetry. eapply (U k i b b' l l'); eassumption.
  - split; [apply B |]. intros H. destruct (switch v sw 0) as [j |] eqn:EJ; [| reflexivity]. destruct (A j eq_refl) as (i & b & l & _ & E1 & E2 & E3). exfalso. apply (H b l); [eapply nth_error_In, E1 | exact E2 | exact E3].
Qed.
(** The parts of C46 that fail: only the lower 32 bits of labels count, so a larger label is lost, and two of them can be refused although they differ; the labels MIN and MAX of
    a 32-bit type overflow. *)
Theorem C46_large_refuted : let tab := repeat (0, 0) 128 in
  (exists rss sw, CasePart (Int 8) [[(CInt 4294967297, None)]] tab = Ok (rss, true) /\ CaseStat 514 rss = Ok sw /\ switch 4294967297 sw 0 = None) /\
  (exists rss, CasePart (Int 8) [[(CInt 4294967297, None)]; [(CInt 1, None)]] tab = Ok (rss, false)) /\
  CasePart (Int 4) [[(CInt (-2147483648), None); (CInt 2147483647, None)]] tab = UB.
Proof.
  cbv zeta. split; [| split].
  - exists [[(4294967297, 1)]], [[]]. repeat split; vm_compute; reflexivity.
  - exists [[(4294967297, 1)]; [(1, 1)]]. vm_compute. reflexivity.
  - vm_compute. reflexivity.
Qed.
(** CASE i OF 1, 5..7: | 3: END *)
Example C46_example : let bs := [[(CInt 1, None); (CInt 5, Some (CInt 7))]; [(CInt 3, None)]] in let tab := repeat (0, 0) 128 in
  case_type (Int 2) /\ moderate (concat bs) /\ CasePart (Int 2) bs tab = Ok ([[(1, 1); (5, 7)]; [(3, 3)]], true) /\ CaseStat 514 [[(1, 1); (5, 7)]; [(3, 3)]] = Ok [[1; 5; 6; 7]; [3]] /\ switch 3 [[1; 5; 6; 7]; [3]] 0 = Some 1%nat /\
  CasePart (Int 2) [[(CInt 1, None); (CInt 5, Some (CInt 7))]; [(CInt 6, None)]] tab = Ok ([[(1, 1); (5, 7)]; [(6, 6)]], false).
Proof.
  cbv zeta. split; [cbn; unfold int_size; lia |]. split; [| repeat split; vm_compute; reflexivity].
  intros l l' H H'. cbn [concat app In] in H, H'. unfold in_int. change (2 ^ (32 - 1)) with 2147483648. destruct H as [<- | [<- | [<- | []]]], H' as [<- | [<- | [<- | []]]]; cbn; lia.
Qed.

Print Assumptions C46_accept.
Print Assumptions C46_select.
