From Verif Require Import Base ArrZ TypeModel TypeSpec.
From Coq Require Import List.
Ltac sp := repeat (match goal with |- _ /\ _ => split end).

(** * Numbering *)
Section Number.
Variable (F : Z -> option Z) (env : list tobj) (b : option nat).
Hypothesis HF : forall name, match b with Some b => FindField env b name | None => None end = F name.
Lemma number_spec : forall ps n0 l n, number env b ps n0 = (l, n) ->
  n0 <= n /\ map (fun e => (fst (fst e), snd e)) l = ps /\
  (forall x k bd, In (x, k, bd) l -> F x = Some k \/ (F x = None /\ n0 <= k < n)) /\
  (forall x x' k bd bd', In (x, k, bd) l -> In (x', k, bd') l -> F x = None -> F x' = None -> x = x') /\
  (forall k, n0 <= k < n -> exists x bd, In (x, k, bd) l).
Proof.
  induction ps as [|[name body] ps IH]; intros n0 l n E; cbn [number] in E.
  - inversion E; subst. sp; [lia|reflexivity|intros x k bd []|intros x x' k bd bd' []|intros k K; lia].
  - rewrite HF in E. destruct (F name) as [k0|] eqn:EF.
    + destruct (number env b ps n0) as [l' n'] eqn:EN. inversion E; subst. destruct (IH _ _ _ EN) as (A1 & A2 & A3 & A4 & A5). sp.
      * lia.
      * cbn [map fst snd]. congruence.
      * intros x k bd [I|I]; [inversion I; subst; auto|apply (A3 x k bd I)].
      * intros x x' k bd bd' [I|I] [I'|I'] N N'; try (inversion I; subst; congruence); try (inversion I'; subst; congruence). apply (A4 x x' k bd bd'); auto.
      * intros k K. destruct (A5 k K) as (x & bd & I). exists x, bd. right; auto.
    + destruct (number env b ps (n0 + 1)) as [l' n'] eqn:EN. inversion E; subst. destruct (IH _ _ _ EN) as (A1 & A2 & A3 & A4 & A5). sp.
      * lia.
      * cbn [map fst snd]. congruence.
      * intros x k bd [I|I]; [inversion I; subst; right; split; auto; lia|]. destruct (A3 x k bd I) as [Q|(Q1 & Q2)]; auto. right. split; auto. lia.
      * intros x x' k bd bd' [I|I] [I'|I'] N N'.
        -- inversion I; inversion I'; congruence.
        -- inversion I; subst. destruct (A3 x' _ bd' I') as [Q|(_ & Q)]; [congruence|lia].
        -- inversion I'; subst. destruct (A3 x _ bd I) as [Q|(_ & Q)]; [congruence|lia].
        -- apply (A4 x x' k bd bd'); auto.
      * intros k K. destruct (Z.eq_dec k n0) as [->|]; [exists name, body; left; auto|]. destruct (A5 k ltac:(lia)) as (x & bd & I). exists x, bd. right; auto.
Qed.
End Number.
Lemma find_proc_in : forall name l k, find_proc name l = Some k -> exists bd, In (name, k, bd) l.
Proof.
  induction l as [|[[x k0] bd] l IH]; intros k E; cbn [find_proc] in E; [discriminate|]. destruct (x =? name) eqn:Q.
  - inversion E; subst. exists bd. left. f_equal. f_equal. lia.
  - destruct (IH k E) as (bd' & I). exists bd'. right; auto.
Qed.
Lemma find_proc_none : forall name l, find_proc name l = None <-> ~ In name (map fst (map (fun e : Z * Z * Z => (fst (fst e), snd e)) l)).
Proof.
  induction l as [|[[x k0] bd] l IH]; cbn [find_proc map fst snd In]; [split; auto|]. destruct (x =? name) eqn:Q.
  - split; [discriminate|]. intro H. exfalso. apply H. left. lia.
  - rewrite IH. split; [intros H [Z|Z]; [lia|auto]|intros H Z; apply H; auto].
Qed.
Lemma find_proc_nodup : forall l name k bd, NoDup (map fst (map (fun e : Z * Z * Z => (fst (fst e), snd e)) l)) -> In (name, k, bd) l -> find_proc name l = Some k.
Proof.
  induction l as [|[[x k0] bd0] l IH]; intros name k bd ND I; [destruct I|]. cbn [find_proc map fst snd] in *. inversion ND as [|? ? N1 N2]; subst. destruct I as [I|I].
  - inversion I; subst. rewrite Z.eqb_refl. auto.
  - destruct (x =? name) eqn:Q; [|apply (IH name k bd); auto]. exfalso. apply N1. apply in_map_iff. exists (name, bd). split; [cbn [fst]; lia|]. apply in_map_iff. exists (name, k, bd). auto.
Qed.

(** * The compiled types *)
Lemma compile_app : forall ds1 ds2 env, compile (ds1 ++ ds2) env = compile ds2 (compile ds1 env).
Proof. induction ds1 as [|d ds1 IH]; intros ds2 env; cbn [app compile]; auto. Qed.
Lemma compile_len : forall ds env, length (compile ds env) = (length ds + length env)%nat.
Proof. induction ds as [|d ds IH]; intros env; cbn [compile length]; auto. rewrite IH. cbn [length]. lia. Qed.

Section Hier.
Variable ds : list tdecl.
Hypothesis SE : sensible ds.
Definition envk (k : nat) : list tobj := compile (firstn k ds) [].
Lemma envk_len : forall k, (k <= length ds)%nat -> length (envk k) = k.
Proof. intros k K. unfold envk. rewrite compile_len, firstn_length. cbn [length]. lia. Qed.
Lemma envk_S : forall k d, nth_error ds k = Some d -> envk (S k) = compile1 (envk k) d :: envk k.
Proof.
  intros k d E. unfold envk. assert (Q : firstn (S k) ds = firstn k ds ++ [d]).
  { clear SE. revert ds E. induction k as [|k IH]; intros [|x ds] E; cbn [nth_error] in E; try discriminate; [inversion E; auto|]. rewrite (firstn_cons (S k)), (IH ds E). auto. }
  rewrite Q, compile_app. reflexivity.
Qed.
Definition O (i : nat) : tobj := match nth_error ds i with Some d => compile1 (envk i) d | None => {| t_base := None; t_lev := 0; t_n := 0; t_procs := [] |} end.
Definition FF (i : nat) (name : Z) : option Z := FindField (envk (S i)) i name.
Lemma get_O : forall k i, (i < k)%nat -> (k <= length ds)%nat -> get_obj (envk k) i = Some (O i).
Proof.
  induction k as [|k IH]; intros i I K; [lia|]. destruct (nth_error ds k) as [d|] eqn:E; [|apply nth_error_None in E; lia]. rewrite (envk_S k d E). cbn [get_obj]. rewrite envk_len by lia. destruct (i =? k)%nat eqn:Q.
  - apply Nat.eqb_eq in Q. subst. unfold O. rewrite E. auto.
  - apply Nat.eqb_neq in Q. apply IH; lia.
Qed.
Lemma FindField_FF : forall k i name, (i < k)%nat -> (k <= length ds)%nat -> FindField (envk k) i name = FF i name.
Proof.
  induction k as [|k IH]; intros i name I K; [lia|]. destruct (Nat.eq_dec i k) as [->|N]; [reflexivity|]. destruct (nth_error ds k) as [d|] eqn:E; [|apply nth_error_None in E; lia]. rewrite (envk_S k d E). cbn [FindField]. rewrite envk_len by lia. replace (i =? k)%nat with false by (symmetry; apply Nat.eqb_neq; auto). apply IH; lia.
Qed.
Definition FB (i : nat) (name : Z) : option Z := match base_of ds i with Some b => FF b name | None => None end.
Lemma FF_eq : forall i name, (i < length ds)%nat -> FF i name = match find_proc name (t_procs (O i)) with Some k => Some k | None => FB i name end.
Proof.
  intros i name I. destruct (nth_error ds i) as [d|] eqn:E; [|apply nth_error_None in E; lia]. unfold FF. rewrite (envk_S i d E). cbn [FindField]. rewrite envk_len by lia. rewrite Nat.eqb_refl. unfold O. rewrite E. destruct (find_proc name _); auto.
  unfold FB, base_of. rewrite E. unfold compile1. destruct (number _ _ _ _). cbn [t_base]. destruct (d_base d) as [b|] eqn:B; auto. apply FindField_FF; [|lia]. apply (se_base _ SE). unfold base_of. rewrite E. auto.
Qed.
Lemma O_base : forall i, (i < length ds)%nat -> t_base (O i) = base_of ds i.
Proof. intros i I. unfold O, base_of. destruct (nth_error ds i) as [d|] eqn:E; [|apply nth_error_None in E; lia]. unfold compile1. destruct (number _ _ _ _). reflexivity. Qed.
Lemma O_facts : forall i, (i < length ds)%nat ->
  t_lev (O i) = match base_of ds i with Some b => t_lev (O b) + 1 | None => 0 end /\
  number (envk i) (base_of ds i) (procs_of ds i) (match base_of ds i with Some b => t_n (O b) | None => 0 end) = (t_procs (O i), t_n (O i)).
Proof.
  intros i I. unfold base_of, procs_of. destruct (nth_error ds i) as [d|] eqn:E; [|apply nth_error_None in E; lia]. assert (OE : O i = compile1 (envk i) d) by (unfold O; rewrite E; auto). rewrite OE. unfold compile1.
  assert (G : match d_base d with Some b => get_obj (envk i) b | None => None end = match d_base d with Some b => Some (O b) | None => None end).
  { destruct (d_base d) as [b|] eqn:B; auto. apply get_O; [|lia]. apply (se_base _ SE). unfold base_of. rewrite E. auto. }
  rewrite G. destruct (d_base d) as [b|] eqn:B; destruct (number _ _ _ _) as [l n] eqn:EN; cbn [t_lev t_procs t_n]; auto.
Qed.
Lemma O_number : forall i, (i < length ds)%nat -> let n0 := match base_of ds i with Some b => t_n (O b) | None => 0 end in let l := t_procs (O i) in let n := t_n (O i) in
  n0 <= n /\ map (fun e => (fst (fst e), snd e)) l = procs_of ds i /\
  (forall x k bd, In (x, k, bd) l -> FB i x = Some k \/ (FB i x = None /\ n0 <= k < n)) /\
  (forall x x' k bd bd', In (x, k, bd) l -> In (x', k, bd') l -> FB i x = None -> FB i x' = None -> x = x') /\
  (forall k, n0 <= k < n -> exists x bd, In (x, k, bd) l).
Proof.
  intros i I n0 l n. destruct (O_facts i I) as [_ E]. apply (number_spec (FB i)) in E; auto.
  intro name. unfold FB. destruct (base_of ds i) as [b|] eqn:B; auto. apply FindField_FF; [|lia]. apply (se_base _ SE). auto.
Qed.
(** Numbers are within bounds, one for each name, and all used. *)
Record numbered (i : nat) : Prop := {
  nu_pos : 0 <= t_n (O i);
  nu_rng : forall name k, FF i name = Some k -> 0 <= k < t_n (O i);
  nu_inj : forall name name' k, FF i name = Some k -> FF i name' = Some k -> name = name';
  nu_all : forall k, 0 <= k < t_n (O i) -> exists name, FF i name = Some k
}.
Lemma FF_numbered : forall i, (i < length ds)%nat -> numbered i.
Proof.
  intro i. induction i as [i IH] using (well_founded_induction lt_wf). intro I. destruct (O_number i I) as (A1 & A2 & A3 & A4 & A5). set (n0 := match base_of ds i with Some b => t_n (O b) | None => 0 end) in *.
  assert (NB : 0 <= n0 /\ (forall name k, FB i name = Some k -> 0 <= k < n0) /\ (forall name name' k, FB i name = Some k -> FB i name' = Some k -> name = name') /\ (forall k, 0 <= k < n0 -> exists name, FB i name = Some k)).
  { unfold FB, n0. destruct (base_of ds i) as [b|] eqn:B; [|sp; [lia|discriminate|discriminate|intros; lia]]. pose proof (se_base _ SE i b B). destruct (IH b ltac:(lia) ltac:(lia)) as [B1 B2 B3 B4]. auto. }
  destruct NB as (N0 & N1 & N2 & N3). pose proof (se_nodup _ SE i) as ND. rewrite <- A2 in ND.
  assert (E : forall name k, FF i name = Some k -> (exists bd, In (name, k, bd) (t_procs (O i))) \/ (find_proc name (t_procs (O i)) = None /\ FB i name = Some k)).
  { intros name k Q. rewrite FF_eq in Q by auto. destruct (find_proc name (t_procs (O i))) as [k'|] eqn:P; [|right; auto]. inversion Q; subst. left. apply find_proc_in. auto. }
  assert (R : forall name k, FF i name = Some k -> FB i name = Some k \/ (FB i name = None /\ n0 <= k < t_n (O i) /\ exists bd, In (name, k, bd) (t_procs (O i)))).
  { intros name k Q. destruct (E name k Q) as [(bd & Q1)|(_ & Q1)]; auto. destruct (A3 _ _ _ Q1) as [Q2|(Q2 & Q3)]; auto. right. split; auto. split; auto. exists bd. auto. }
  constructor.
  - lia.
  - intros name k Q. destruct (R name k Q) as [Q1|(_ & Q1 & _)]; [pose proof (N1 _ _ Q1)|]; lia.
  - intros name name' k Q Q'. destruct (R _ _ Q) as [P|(P1 & P2 & (bd & P3))], (R _ _ Q') as [P'|(P1' & P2' & (bd' & P3'))].
    + apply (N2 _ _ k); auto.
    + pose proof (N1 _ _ P). lia.
    + pose proof (N1 _ _ P'). lia.
    + apply (A4 name name' k bd bd'); auto.
  - intros k K. destruct (Z_lt_le_dec k n0) as [L|L].
    + destruct (N3 k ltac:(lia)) as (name & Q). exists name. rewrite FF_eq by auto. destruct (find_proc name (t_procs (O i))) as [k'|] eqn:P; auto. apply find_proc_in in P. destruct P as (bd & P). destruct (A3 _ _ _ P) as [X|(X & _)]; congruence.
    + destruct (A5 k ltac:(lia)) as (x & bd & Q). exists x. rewrite FF_eq by auto. rewrite (find_proc_nodup _ _ _ _ ND Q). auto.
Qed.

(** The specification is a function. *)
Lemma body_for_fun : forall name i b1 b2, body_for ds name i b1 -> body_for ds name i b2 -> b1 = b2.
Proof.
  intros name i b1 b2 H. revert b2. induction H as [i body I|i b body N B H IH]; intros b2 H2.
  - inversion H2 as [? ? I2|? ? ? N2 _ _]; subst; [|exfalso; apply N2; apply in_map_iff; exists (name, body); auto].
    pose proof (se_nodup _ SE i) as ND. revert ND I I2. generalize (procs_of ds i). induction l as [|[x y] l IHl]; intros ND I I2; [destruct I|]. cbn [map fst] in ND. inversion ND as [|? ? M1 M2]; subst.
    destruct I as [I|I], I2 as [I2|I2]; try (inversion I; subst); try (inversion I2; subst); auto; exfalso; apply M1; apply in_map_iff; [exists (name, b2)|exists (name, body)]; auto.
  - inversion H2 as [? ? I2|? b' ? N2 B2 H3]; subst; [exfalso; apply N; apply in_map_iff; exists (name, b2); auto|]. apply IH. congruence.
Qed.
Lemma body_ne : forall name i bd, body_for ds name i bd -> bd <> EOM.
Proof. intros name i bd H. induction H; auto. apply (se_body _ SE i name); auto. Qed.
Lemma extends_lt : forall i j, extends ds i j -> (j <= i)%nat /\ (j < length ds)%nat.
Proof. intros i j H. induction H as [i I|i b j B H IH]; [lia|]. pose proof (se_base _ SE i b B). lia. Qed.
Lemma base_lt : forall i b, base_of ds i = Some b -> (i < length ds)%nat.
Proof. intros i b H. unfold base_of in H. destruct (nth_error ds i) eqn:E; [|discriminate]. apply nth_error_Some. congruence. Qed.
Lemma depth_lev : forall i, (i < length ds)%nat -> depth ds i (t_lev (O i)) /\ 0 <= t_lev (O i).
Proof.
  intro i. induction i as [i IH] using (well_founded_induction lt_wf). intro I. destruct (O_facts i I) as [L _]. rewrite L. destruct (base_of ds i) as [b|] eqn:B.
  - pose proof (se_base _ SE i b B). destruct (IH b ltac:(lia) ltac:(lia)) as [D1 D2]. split; [|lia]. apply (dep_ext _ _ b); auto.
  - split; [|lia]. constructor; auto.
Qed.
Lemma lev_ext : forall i j, extends ds i j -> t_lev (O j) <= t_lev (O i).
Proof. intros i j H. induction H as [|i b j B H IH]; [lia|]. destruct (O_facts i (base_lt _ _ B)) as [L _]. rewrite B in L. lia. Qed.
(** Each level up to its own has one base type. *)
Lemma anc_at : forall i l, (i < length ds)%nat -> 0 <= l <= t_lev (O i) -> exists j, extends ds i j /\ t_lev (O j) = l.
Proof.
  intro i. induction i as [i IH] using (well_founded_induction lt_wf). intros l I K. destruct (Z.eq_dec l (t_lev (O i))) as [->|N]; [exists i; split; auto; constructor; auto|].
  destruct (O_facts i I) as [L _]. destruct (base_of ds i) as [b|] eqn:B; [|lia]. pose proof (se_base _ SE i b B). destruct (IH b ltac:(lia) l ltac:(lia) ltac:(lia)) as (j & J1 & J2). exists j. split; auto. apply (ext_base _ i b); auto.
Qed.
Lemma visible_FF : forall name i bd, body_for ds name i bd -> (i < length ds)%nat -> exists k, FF i name = Some k.
Proof.
  intros name i bd H. induction H as [i body I|i b body N B H IH]; intro L; rewrite FF_eq by auto; destruct (find_proc name (t_procs (O i))) as [k|] eqn:E; try (exists k; reflexivity).
  - apply find_proc_none in E. destruct (O_number i L) as (_ & A2 & _). rewrite A2 in E. exfalso. apply E. apply in_map_iff. exists (name, body). auto.
  - unfold FB. rewrite B. apply IH. pose proof (se_base _ SE i b B). lia.
Qed.
(** A number found for a base type is the number for the extension. *)
Lemma FF_ext : forall i j name k, extends ds i j -> FF j name = Some k -> FF i name = Some k.
Proof.
  intros i j name k H. induction H as [|i b j B H IH]; auto. intro Q. specialize (IH Q). pose proof (base_lt _ _ B) as I. rewrite FF_eq by auto. assert (FB i name = Some k) as QB by (unfold FB; rewrite B; auto). destruct (find_proc name (t_procs (O i))) as [k'|] eqn:E; auto.
  apply find_proc_in in E. destruct E as (bd & E). destruct (O_number i I) as (_ & _ & A3 & _). destruct (A3 _ _ _ E) as [X|(X & _)]; congruence.
Qed.

(** * Memory *)
Lemma wcopy_spec : forall n m d s, (forall i j, 0 <= i < Z.of_nat n -> 0 <= j < Z.of_nat n -> d + i <> s + j) -> forall a, wcopy n m d s a = if (d <=? a) && (a <? d + Z.of_nat n) then m (s + (a - d)) else m a.
Proof.
  induction n as [|n IH]; intros m d s H a; cbn [wcopy]; [replace ((d <=? a) && (a <? d + Z.of_nat 0)) with false by lia; auto|].
  rewrite IH; [|intros i j I J; specialize (H (i + 1) (j + 1)); lia]. unfold wupd. destruct ((d + 1 <=? a) && (a <? d + 1 + Z.of_nat n)) eqn:Q.
  - replace ((d <=? a) && (a <? d + Z.of_nat (S n))) with true by lia. replace (s + 1 + (a - (d + 1)) =? d) with false; [f_equal; lia|]. symmetry. apply Z.eqb_neq. intro E. apply (H 0 (a - d)); lia.
  - destruct (a =? d) eqn:E.
    + replace ((d <=? a) && (a <? d + Z.of_nat (S n))) with true by lia. f_equal. lia.
    + replace ((d <=? a) && (a <? d + Z.of_nat (S n))) with false by lia. auto.
Qed.
Lemma inherit_spec : forall n m t t0, (forall k, 0 <= k < Z.of_nat n -> m (t0 - k) <> EOM) -> m (t0 - Z.of_nat n) = EOM -> ((forall k k', 0 <= k < Z.of_nat n -> 0 <= k' <= Z.of_nat n -> t - k <> t0 - k') \/ t = t0) ->
  exists m', (forall fuel, (n < fuel)%nat -> inherit_loop fuel m t t0 = Ok m') /\ forall a, m' a = if (t - Z.of_nat n <? a) && (a <=? t) then m (t0 - (t - a)) else m a.
Proof.
  induction n as [|n IH]; intros m t t0 N E D.
  - exists m. split; [|intro a; replace ((t - Z.of_nat 0 <? a) && (a <=? t)) with false by lia; auto]. intros [|f] F; [lia|]. cbn [inherit_loop]. replace (t0 - Z.of_nat 0) with t0 in E by lia. rewrite E. reflexivity.
  - set (m1 := wupd m t (m t0)). assert (S1 : forall k, 0 <= k <= Z.of_nat (S n) -> m1 (t0 - k) = m (t0 - k)).
    { intros k K. unfold m1, wupd. destruct (t0 - k =? t) eqn:Q; auto. destruct D as [D| ->]; [exfalso; apply (D 0 k); lia|]. f_equal. lia. }
    destruct (IH m1 (t - 1) (t0 - 1)) as (m' & A & B).
    + intros k K. replace (t0 - 1 - k) with (t0 - (k + 1)) by lia. rewrite S1 by lia. apply N. lia.
    + replace (t0 - 1 - Z.of_nat n) with (t0 - Z.of_nat (S n)) by lia. rewrite S1 by lia. auto.
    + destruct D as [D| ->]; [left|right; auto]. intros k k' K K'. specialize (D (k + 1) (k' + 1)). lia.
    + exists m'. split.
      * intros [|f] F; [lia|]. cbn [inherit_loop]. specialize (N 0). rewrite Z.sub_0_r in N. replace (m t0 =? EOM) with false by (symmetry; apply Z.eqb_neq; apply N; lia). apply A. lia.
      * intro a. rewrite B. destruct ((t - 1 - Z.of_nat n <? a) && (a <=? t - 1)) eqn:Q.
        -- replace ((t - Z.of_nat (S n) <? a) && (a <=? t)) with true by lia. replace (t0 - 1 - (t - 1 - a)) with (t0 - (t - a)) by lia. apply S1. lia.
        -- unfold m1, wupd. destruct (a =? t) eqn:Q2.
           ++ replace ((t - Z.of_nat (S n) <? a) && (a <=? t)) with true by lia. f_equal. lia.
           ++ replace ((t - Z.of_nat (S n) <? a) && (a <=? t)) with false by lia. auto.
Qed.
Lemma init_procs_other : forall ps m t a, (forall x k bd, In (x, k, bd) ps -> a <> t - (TPROC0OFF + k)) -> init_procs m t ps a = m a.
Proof.
  induction ps as [|[[x k] bd] ps IH]; intros m t a H; cbn [init_procs]; auto. rewrite IH; [|intros; apply (H x0 k0 bd0); right; auto]. unfold wupd. replace (a =? t - (TPROC0OFF + k)) with false; auto. symmetry. apply Z.eqb_neq. apply (H x k bd). left; auto.
Qed.
Lemma init_procs_in : forall ps m t x k bd, In (x, k, bd) ps -> NoDup (map (fun e => snd (fst e)) ps) -> init_procs m t ps (t - (TPROC0OFF + k)) = bd.
Proof.
  induction ps as [|[[y j] bd0] ps IH]; intros m t x k bd I ND; [destruct I|]. cbn [init_procs map fst snd] in *. inversion ND as [|? ? N1 N2]; subst. destruct I as [I|I].
  - inversion I; subst. rewrite init_procs_other; [unfold wupd; rewrite Z.eqb_refl; auto|]. intros x' k' bd' I' E. apply N1. apply in_map_iff. exists (x', k', bd'). split; [cbn [fst snd]; lia|auto].
  - apply (IH _ t x); auto.
Qed.
Lemma nodup_by : forall {A B C} (f : A -> B) (g : A -> C) (l : list A), NoDup (map f l) -> (forall x y, In x l -> In y l -> g x = g y -> f x = f y) -> NoDup (map g l).
Proof.
  induction l as [|a l IH]; intros ND H; cbn [map] in *; [constructor|]. inversion ND as [|? ? N1 N2]; subst. constructor.
  - intro I. apply in_map_iff in I. destruct I as (y & E & Y). apply N1. apply in_map_iff. exists y. split; auto. apply H; [right; auto|left; auto|auto].
  - apply IH; auto. intros x y X Y. apply H; right; auto.
Qed.
Lemma procs_nodup : forall i, (i < length ds)%nat -> NoDup (map (fun e => snd (fst e)) (t_procs (O i))).
Proof.
  intros i I. destruct (O_number i I) as (_ & A2 & _). pose proof (se_nodup _ SE i) as ND. rewrite <- A2 in ND. apply (nodup_by (fun e : Z * Z * Z => fst (fst e))).
  - rewrite map_map in ND. cbn [fst] in ND. auto.
  - intros [[x k] bd] [[y k'] bd'] X Y E. cbn [fst snd] in *. subst k'. apply (nu_inj i (FF_numbered i I) x y k); rewrite FF_eq by auto.
    + rewrite (find_proc_nodup _ _ _ _ ND X). auto.
    + rewrite (find_proc_nodup _ _ _ _ ND Y). auto.
Qed.

(** * Initialisation *)
Variables (T size : nat -> Z) (modul : Z).
Record placed_types : Prop := {
  pt_nz : forall i, (i < length ds)%nat -> T i <> 0;
  pt_dis : forall i j, (i < length ds)%nat -> (j < length ds)%nat -> i <> j -> T i < T j - TPROC0OFF - t_n (O j) \/ T j < T i - TPROC0OFF - t_n (O i);
  pt_lev : forall i, (i < length ds)%nat -> t_lev (O i) <= 16
}.
Hypothesis PT : placed_types.
Record inited (m : wmem) (i : nat) : Prop := {
  in_ext : forall j, extends ds i j -> m (T i - BASEOFF + t_lev (O j)) = T j;
  in_zero : forall l, t_lev (O i) < l <= 16 -> m (T i - BASEOFF + l) = 0;
  in_proc : forall name k, FF i name = Some k -> body_for ds name i (m (T i - TPROC0OFF - k));
  in_eom : m (T i - TPROC0OFF - t_n (O i)) = EOM
}.
Lemma frame_inited : forall m m' i, (i < length ds)%nat -> (forall a, T i - TPROC0OFF - t_n (O i) <= a <= T i -> m' a = m a) -> inited m i -> inited m' i.
Proof.
  intros m m' i I F [A1 A2 A3 A4]. pose proof (FF_numbered i I) as [N1 N2 N3 N4]. pose proof (depth_lev i I) as [_ Lp]. pose proof (pt_lev PT i I) as Lv. unfold TPROC0OFF, BASEOFF in *. constructor.
  - intros j J. destruct (extends_lt i j J) as [_ Jl]. pose proof (depth_lev j Jl) as [_ Jp]. pose proof (lev_ext i j J). rewrite F; auto. unfold TPROC0OFF, BASEOFF in *. lia.
  - intros l L. rewrite F; auto. unfold TPROC0OFF, BASEOFF in *. lia.
  - intros name k Q. pose proof (N2 name k Q). unfold TPROC0OFF in *. rewrite F by lia. auto.
  - unfold TPROC0OFF in *. rewrite F by lia. auto.
Qed.
Lemma frame_fresh : forall m m' i, (i < length ds)%nat -> (forall a, T i - TPROC0OFF - t_n (O i) <= a <= T i -> m' a = m a) -> fresh_desc m (T i) (t_n (O i)) (size i) -> fresh_desc m' (T i) (t_n (O i)) (size i).
Proof.
  intros m m' i I F [A1 A2 A3 A4 A5]. pose proof (FF_numbered i I) as [N1 N2 N3 N4]. unfold TPROC0OFF, BASEOFF in *. constructor; unfold TPROC0OFF, BASEOFF in *.
  - rewrite F by lia. auto.
  - intros k K. rewrite F by lia. auto.
  - intros l L. rewrite F by lia. auto.
  - rewrite F by lia. auto.
  - rewrite F by lia. auto.
Qed.
Lemma init_step : forall k m next, (k < length ds)%nat -> (forall i, (i < k)%nat -> inited m i) -> (forall i, (k <= i < length ds)%nat -> fresh_desc m (T i) (t_n (O i)) (size i)) ->
  exists N m', (forall fuel, (N <= fuel)%nat -> init_type fuel T size modul k (O k) (m, next) = Ok (m', T k - 23)) /\ (forall i, (i < S k)%nat -> inited m' i) /\ (forall i, (S k <= i < length ds)%nat -> fresh_desc m' (T i) (t_n (O i)) (size i)).
Proof.
  intros k m next K A B. pose proof (FF_numbered k K) as NU. destruct (O_number k K) as (N1 & N2 & N3 & N4 & N5). destruct (O_facts k K) as [LV _]. destruct (depth_lev k K) as [_ Lp]. pose proof (pt_lev PT k K) as Lv. pose proof (B k ltac:(lia)) as FR.
  set (t := T k) in *. set (o := O k) in *. set (t0 := match t_base o with Some b => T b | None => t end).
  set (m1 := wcopy (Z.to_nat (t_lev o)) m (t - BASEOFF) (t0 - BASEOFF)).
  assert (BD : forall b, base_of ds k = Some b -> (b < k)%nat /\ (b < length ds)%nat /\ t0 = T b /\ (t < T b - TPROC0OFF - t_n (O b) \/ T b < t - TPROC0OFF - t_n o) /\ t_lev o = t_lev (O b) + 1 /\ inited m b /\ numbered b).
  { intros b E. pose proof (se_base _ SE k b E) as Lb. assert ((b < length ds)%nat) by lia. split; auto. split; auto. split; [unfold t0, o; rewrite O_base by auto; rewrite E; auto|]. split; [destruct (pt_dis PT k b K ltac:(auto) ltac:(lia)); auto|]. split; [rewrite LV, E; auto|]. split; [apply A; auto|apply FF_numbered; auto]. }
  assert (BN : base_of ds k = None -> t0 = t /\ t_lev o = 0) by (intro E; split; [unfold t0, o; rewrite O_base by auto; rewrite E; auto|rewrite LV, E; auto]).
  assert (M1 : forall a, m1 a = if (t - BASEOFF <=? a) && (a <? t - BASEOFF + t_lev o) then m (t0 - t + a) else m a).
  { intro a. unfold m1. rewrite wcopy_spec; rewrite Z2Nat.id by lia; [destruct ((t - BASEOFF <=? a) && _); auto; f_equal; lia|]. intros i j I J. destruct (base_of ds k) as [b|] eqn:E.
    - destruct (BD b eq_refl) as (_ & Bl & -> & D & _ & _ & [Nb _ _ _]). pose proof (nu_pos _ NU). unfold TPROC0OFF, BASEOFF in *. fold o in H. lia.
    - destruct (BN eq_refl) as (_ & L0). lia. }
  set (m2 := wupd (wupd m1 (t - BASEOFF + t_lev o) t) (t - 21) modul).
  assert (M2 : m2 t = size k).
  { unfold m2, wupd. unfold BASEOFF in *. destruct (t =? t - 21) eqn:Q1; [lia|]. destruct (t =? t - 17 + t_lev o) eqn:Q2; [lia|]. rewrite M1. replace ((t - 17 <=? t) && (t <? t - 17 + t_lev o)) with false by lia. apply (fd_size _ _ _ _ FR). }
  set (m3 := wupd (wupd m2 t ((m2 t + 5 * 8 - 1) / (4 * 8) * (4 * 8))) (t - 23) next).
  (* outside the special words the copy is unchanged *)
  assert (M3 : forall a, a <= t - TPROC0OFF \/ t < a -> m3 a = m a).
  { intros a H. unfold m3, m2, wupd. unfold TPROC0OFF, BASEOFF in *. destruct (a =? t - 23) eqn:Q1; [lia|]. destruct (a =? t) eqn:Q2; [lia|]. destruct (a =? t - 21) eqn:Q3; [lia|]. destruct (a =? t - 17 + t_lev o) eqn:Q4; [lia|]. rewrite M1. replace ((t - 17 <=? a) && (a <? t - 17 + t_lev o)) with false by lia. auto. }
  assert (M3b : forall l, 0 <= l <= 16 -> m3 (t - BASEOFF + l) = if l =? t_lev o then t else if l <? t_lev o then m (t0 - BASEOFF + l) else m (t - BASEOFF + l)).
  { intros l H. unfold m3, m2, wupd. unfold TPROC0OFF, BASEOFF in *. destruct (t - 17 + l =? t - 23) eqn:Q1; [lia|]. destruct (t - 17 + l =? t) eqn:Q2; [lia|]. destruct (t - 17 + l =? t - 21) eqn:Q3; [lia|].
    destruct (t - 17 + l =? t - 17 + t_lev o) eqn:Q4; [replace (l =? t_lev o) with true by lia; auto|]. replace (l =? t_lev o) with false by lia. rewrite M1. destruct (l <? t_lev o) eqn:Q5.
    - replace ((t - 17 <=? t - 17 + l) && (t - 17 + l <? t - 17 + t_lev o)) with true by lia. f_equal. lia.
    - replace ((t - 17 <=? t - 17 + l) && (t - 17 + l <? t - 17 + t_lev o)) with false by lia. auto. }
  set (n0 := match base_of ds k with Some b => t_n (O b) | None => t_n o end).
  pose proof (nu_pos _ NU) as NP. fold o in NP.
  assert (P0 : 0 <= n0 <= t_n o).
  { unfold n0. destruct (base_of ds k) as [b|] eqn:E; [|lia]. destruct (BD b eq_refl) as (_ & _ & _ & _ & _ & _ & [Nb _ _ _]). lia. }
  destruct (inherit_spec (Z.to_nat n0) m3 (t - TPROC0OFF) (t0 - TPROC0OFF)) as (m4 & I1 & I2); rewrite ?Z2Nat.id in * by lia.
  { intros i I. unfold n0 in I. destruct (base_of ds k) as [b|] eqn:E.
    - destruct (BD b eq_refl) as (_ & Bl & -> & D & _ & Ib & Nb). unfold TPROC0OFF in *. rewrite M3 by (pose proof (nu_pos _ Nb); lia). destruct (nu_all _ Nb i I) as (name & Q). apply (body_ne name b). apply (in_proc _ _ Ib). auto.
    - destruct (BN eq_refl) as (-> & _). unfold TPROC0OFF in *. rewrite M3 by lia. pose proof (fd_proc _ _ _ _ FR i I) as Z0. unfold TPROC0OFF in Z0. rewrite Z0. discriminate. }
  { unfold n0. destruct (base_of ds k) as [b|] eqn:E.
    - destruct (BD b eq_refl) as (_ & Bl & -> & D & _ & Ib & Nb). unfold TPROC0OFF in *. rewrite M3 by (pose proof (nu_pos _ Nb); lia). apply (in_eom _ _ Ib).
    - destruct (BN eq_refl) as (-> & _). unfold TPROC0OFF in *. rewrite M3 by lia. apply (fd_eom _ _ _ _ FR). }
  { unfold n0. destruct (base_of ds k) as [b|] eqn:E.
    - left. destruct (BD b eq_refl) as (_ & Bl & -> & D & _ & Ib & Nb). unfold TPROC0OFF in *. intros i i' I I'. pose proof (nu_pos _ Nb). unfold n0 in P0. lia.
    - right. destruct (BN eq_refl) as (-> & _). auto. }
  set (m5 := init_procs m4 t (t_procs o)).
  assert (RK : forall x i bd, In (x, i, bd) (t_procs o) -> 0 <= i < t_n o).
  { intros x i bd Q. apply (nu_rng _ NU x). rewrite FF_eq by auto. pose proof (se_nodup _ SE k) as ND. rewrite <- N2 in ND. fold o. fold o in ND. rewrite (find_proc_nodup _ _ _ _ ND Q). auto. }
  assert (OUT : forall a, a < t - TPROC0OFF - t_n o \/ t < a -> m5 a = m a).
  { intros a H. unfold m5. rewrite init_procs_other; [|intros x i bd Q; pose proof (RK x i bd Q); unfold TPROC0OFF in *; lia]. rewrite I2. replace ((t - TPROC0OFF - n0 <? a) && (a <=? t - TPROC0OFF)) with false by (unfold TPROC0OFF in *; lia). apply M3. unfold TPROC0OFF in *. lia. }
  exists (S (Z.to_nat n0)), m5. split; [|split].
  - intros fuel F. unfold init_type, INITYP. cbv iota beta. fold t o. fold t0. fold m1. fold m2. replace (m2 t =? size k) with true by (rewrite M2, Z.eqb_refl; auto). cbn [negb]. fold m3. unfold INHERIT. rewrite I1 by lia. rewrite !bind_ok. reflexivity.
  - intros i I. destruct (Nat.eq_dec i k) as [->|NE].
    2: { assert (Ik : (i < k)%nat) by lia. apply (frame_inited m); [lia| |apply A; auto]. intros a H. apply OUT. destruct (pt_dis PT i k ltac:(lia) K NE); fold t in H0; fold o in H0; unfold TPROC0OFF in *; pose proof (nu_pos _ (FF_numbered i ltac:(lia))); lia. }
    assert (M5b : forall l, 0 <= l <= 16 -> m5 (t - BASEOFF + l) = m3 (t - BASEOFF + l)).
    { intros l H. unfold m5. rewrite init_procs_other; [|intros x i bd Q; pose proof (RK x i bd Q); unfold TPROC0OFF, BASEOFF in *; lia]. rewrite I2. unfold TPROC0OFF, BASEOFF in *. replace ((t - 25 - n0 <? t - 17 + l) && (t - 17 + l <=? t - 25)) with false by lia. auto. }
    constructor; fold t o.
    + intros j J. destruct (extends_lt k j J) as [_ Jl]. destruct (depth_lev j Jl) as [_ Jp]. pose proof (lev_ext k j J) as LE. fold o in LE. rewrite M5b, M3b by lia. destruct (t_lev (O j) =? t_lev o) eqn:Q1.
      * inversion J as [|? b ? Eb Hb]; subst; auto. destruct (BD b Eb) as (_ & _ & _ & _ & Lb & _). pose proof (lev_ext b j Hb). lia.
      * replace (t_lev (O j) <? t_lev o) with true by lia. inversion J as [|? b ? Eb Hb]; subst; [fold o in Q1; lia|]. destruct (BD b Eb) as (_ & _ & -> & _ & Lb & Ib & _). apply (in_ext _ _ Ib). auto.
    + intros l H. rewrite M5b, M3b by lia. replace (l =? t_lev o) with false by lia. replace (l <? t_lev o) with false by lia. unfold BASEOFF. destruct (Z.eq_dec l 16) as [->|]; [replace (t - 17 + 16) with (t - 1) by lia; apply (fd_res _ _ _ _ FR)|apply (fd_base _ _ _ _ FR); lia].
    + intros name num Q. pose proof (nu_rng _ NU name num Q) as R. rewrite FF_eq in Q by auto. fold o in Q. destruct (find_proc name (t_procs o)) as [k'|] eqn:P.
      * inversion Q; subst k'. apply find_proc_in in P. destruct P as (bd & P). replace (t - TPROC0OFF - num) with (t - (TPROC0OFF + num)) by lia. unfold m5. rewrite (init_procs_in _ _ _ name num bd P (procs_nodup k K)). apply body_own. rewrite <- N2. fold o. apply in_map_iff. exists (name, num, bd). auto.
      * unfold FB in Q. destruct (base_of ds k) as [b|] eqn:Eb; [|discriminate]. destruct (BD b eq_refl) as (Lb & Bl & Et & D & _ & Ib & Nb). apply (body_base _ _ _ b); auto.
        { rewrite <- N2. apply find_proc_none. auto. }
        pose proof (nu_rng _ Nb name num Q) as Rb. unfold m5. rewrite init_procs_other.
        -- rewrite I2. unfold n0. unfold TPROC0OFF in *. replace ((t - 25 - t_n (O b) <? t - 25 - num) && (t - 25 - num <=? t - 25)) with true by lia. rewrite Et. replace (T b - 25 - (t - 25 - (t - 25 - num))) with (T b - 25 - num) by lia. rewrite M3 by lia. apply (in_proc _ _ Ib). auto.
        -- intros x i bd X Y. assert (i = num) by lia. subst i. pose proof (se_nodup _ SE k) as ND. rewrite <- N2 in ND. fold o in ND.
           assert (X1 : FF k x = Some num) by (rewrite FF_eq by auto; fold o; rewrite (find_proc_nodup _ _ _ _ ND X); auto).
           assert (X2 : FF k name = Some num) by (rewrite FF_eq by auto; fold o; rewrite P; unfold FB; rewrite Eb; auto).
           pose proof (nu_inj _ NU _ _ _ X1 X2). subst x. rewrite (find_proc_nodup _ _ _ _ ND X) in P. discriminate.
    + unfold m5. rewrite init_procs_other; [|intros x i bd Q; pose proof (RK x i bd Q); lia]. rewrite I2. replace ((t - TPROC0OFF - n0 <? t - TPROC0OFF - t_n o) && (t - TPROC0OFF - t_n o <=? t - TPROC0OFF)) with false by lia. rewrite M3 by lia. apply (fd_eom _ _ _ _ FR).
  - intros i I. apply (frame_fresh m); [lia| |apply B; lia]. intros a H. apply OUT. destruct (pt_dis PT i k ltac:(lia) K ltac:(lia)); fold t in H0; fold o in H0; unfold TPROC0OFF in *; pose proof (nu_pos _ (FF_numbered i ltac:(lia))); lia.
Qed.
Lemma init_all : forall k m next, (k <= length ds)%nat -> (forall i, (i < length ds)%nat -> fresh_desc m (T i) (t_n (O i)) (size i)) ->
  exists N m' next', (forall fuel, (N <= fuel)%nat -> init_types fuel T size modul (envk k) (m, next) = Ok (m', next')) /\ (forall i, (i < k)%nat -> inited m' i) /\ (forall i, (k <= i < length ds)%nat -> fresh_desc m' (T i) (t_n (O i)) (size i)).
Proof.
  induction k as [|k IH]; intros m next K F.
  - exists 0%nat, m, next. split; [reflexivity|]. split; [intros; lia|]. intros i I. apply F. lia.
  - destruct (IH m next ltac:(lia) F) as (N & m1 & next1 & A & B & C). destruct (init_step k m1 next1 ltac:(lia) B C) as (N2 & m2 & A2 & B2 & C2). exists (Nat.max N N2), m2, (T k - 23). split; [|split]; auto.
    intros fuel Fu. destruct (nth_error ds k) as [d|] eqn:E; [|apply nth_error_None in E; lia]. rewrite (envk_S k d E). cbn [init_types]. rewrite A by lia. rewrite bind_ok. rewrite envk_len by lia. replace (compile1 (envk k) d) with (O k) by (unfold O; rewrite E; auto). apply A2. lia.
Qed.
End Hier.
