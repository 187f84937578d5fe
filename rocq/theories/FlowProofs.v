(** * Control statements: proofs *)
From Verif Require Import Base FlowSpec FlowModel.
Local Open Scope Z_scope.

Section Flow.
Variable St : Type.
Variable asserts : bool.

Scheme stat_mut := Induction for stat Sort Prop
with stats_mut := Induction for stats Sort Prop
with arms_mut := Induction for arms Sort Prop
with cases_mut := Induction for cases Sort Prop.
Combined Scheme flow_ind from stat_mut, stats_mut, arms_mut, cases_mut.

Notation gen := (gen St asserts).
Notation gen_seq := (gen_seq St asserts).
Notation gen_arms := (gen_arms St asserts).
Notation gen_cases := (gen_cases St asserts).

(** ** One-step equations *)
Lemma eq1 : forall f, loops St (SAct St f) = 0.
Proof. reflexivity. Qed.
Lemma eq2 : forall a e, loops St (SIf St a e) = loops_a St a + loops_l St e.
Proof. reflexivity. Qed.
Lemma eq3 : forall x c els e, loops St (SCase St x c els e) = loops_c St c + loops_l St e.
Proof. reflexivity. Qed.
Lemma eq4 : forall a els e, loops St (SWith St a els e) = loops_a St a + loops_l St e.
Proof. reflexivity. Qed.
Lemma eq5 : forall t b, loops St (SWhile St t b) = loops_l St b.
Proof. reflexivity. Qed.
Lemma eq6 : forall b t, loops St (SRepeat St b t) = loops_l St b.
Proof. reflexivity. Qed.
Lemma eq7 : forall b, loops St (SLoop St b) = 1 + loops_l St b.
Proof. reflexivity. Qed.
Lemma eq8 : loops St (SExit St) = 0.
Proof. reflexivity. Qed.
Lemma eq9 : forall v, loops St (SRet St v) = 0.
Proof. reflexivity. Qed.
Lemma eq10 : forall k, loops St (SHalt St k) = 0.
Proof. reflexivity. Qed.
Lemma eq11 : forall t k, loops St (SAssert St t k) = 0.
Proof. reflexivity. Qed.
Lemma eq12 : loops_l St (Nil St) = 0.
Proof. reflexivity. Qed.
Lemma eq13 : forall s r, loops_l St (Cons St s r) = loops St s + loops_l St r.
Proof. reflexivity. Qed.
Lemma eq14 : loops_a St (ANil St) = 0.
Proof. reflexivity. Qed.
Lemma eq15 : forall t b r, loops_a St (ACons St t b r) = loops_l St b + loops_a St r.
Proof. reflexivity. Qed.
Lemma eq16 : loops_c St (CNil St) = 0.
Proof. reflexivity. Qed.
Lemma eq17 : forall l b r, loops_c St (CCons St l b r) = loops_l St b + loops_c St r.
Proof. reflexivity. Qed.
#[local] Hint Rewrite eq1 eq2 eq3 eq4 eq5 eq6 eq7 eq8 eq9 eq10 eq11 eq12 eq13 eq14 eq15 eq16 eq17 : loopsdb.
Lemma eq18 : forall d f, ok_stat St d (SAct St f) = true.
Proof. reflexivity. Qed.
Lemma eq19 : forall d a e, ok_stat St d (SIf St a e) = ok_arms St d a && ok_stats St d e.
Proof. reflexivity. Qed.
Lemma eq20 : forall d x c els e, ok_stat St d (SCase St x c els e) = ok_cases St d c && ok_stats St d e.
Proof. reflexivity. Qed.
Lemma eq21 : forall d a els e, ok_stat St d (SWith St a els e) = ok_arms St d a && ok_stats St d e.
Proof. reflexivity. Qed.
Lemma eq22 : forall d t b, ok_stat St d (SWhile St t b) = ok_stats St d b.
Proof. reflexivity. Qed.
Lemma eq23 : forall d b t, ok_stat St d (SRepeat St b t) = ok_stats St d b.
Proof. reflexivity. Qed.
Lemma eq24 : forall d b, ok_stat St d (SLoop St b) = ok_stats St true b.
Proof. reflexivity. Qed.
Lemma eq25 : forall d , ok_stat St d (SExit St) = d.
Proof. reflexivity. Qed.
Lemma eq26 : forall d v, ok_stat St d (SRet St v) = true.
Proof. reflexivity. Qed.
Lemma eq27 : forall d k, ok_stat St d (SHalt St k) = true.
Proof. reflexivity. Qed.
Lemma eq28 : forall d t k, ok_stat St d (SAssert St t k) = true.
Proof. reflexivity. Qed.
Lemma eq29 : forall d, ok_stats St d (Nil St) = true.
Proof. reflexivity. Qed.
Lemma eq30 : forall d s r, ok_stats St d (Cons St s r) = ok_stat St d s && ok_stats St d r.
Proof. reflexivity. Qed.
Lemma eq31 : forall d, ok_arms St d (ANil St) = true.
Proof. reflexivity. Qed.
Lemma eq32 : forall d t b r, ok_arms St d (ACons St t b r) = ok_stats St d b && ok_arms St d r.
Proof. reflexivity. Qed.
Lemma eq33 : forall d, ok_cases St d (CNil St) = true.
Proof. reflexivity. Qed.
Lemma eq34 : forall d l b r, ok_cases St d (CCons St l b r) = ok_stats St d b && ok_cases St d r.
Proof. reflexivity. Qed.
#[local] Hint Rewrite eq18 eq19 eq20 eq21 eq22 eq23 eq24 eq25 eq26 eq27 eq28 eq29 eq30 eq31 eq32 eq33 eq34 : okdb.
Lemma eq35 : forall f n st, exec St asserts n (SAct St f) st = (let* st1 := f st in Ok (st1, Norm)).
Proof. reflexivity. Qed.
Lemma eq36 : forall a e n st, exec St asserts n (SIf St a e) st = (exec_arms St asserts n a (fun st => execs St asserts n e st) st).
Proof. reflexivity. Qed.
Lemma eq37 : forall x c els e n st, exec St asserts n (SCase St x c els e) st = (let* (st1, v) := x st in exec_cases St asserts n v c (fun st => if els then execs St asserts n e st else Trap (-4)) st1).
Proof. reflexivity. Qed.
Lemma eq38 : forall a els e n st, exec St asserts n (SWith St a els e) st = (exec_arms St asserts n a (fun st => if els then execs St asserts n e st else Trap (-7)) st).
Proof. reflexivity. Qed.
Lemma eq39 : forall t b n st, exec St asserts n (SWhile St t b) st = (while St n t (fun st => execs St asserts n b st) st).
Proof. reflexivity. Qed.
Lemma eq40 : forall b t n st, exec St asserts n (SRepeat St b t) st = (repeat_ St n (fun st => execs St asserts n b st) t st).
Proof. reflexivity. Qed.
Lemma eq41 : forall b n st, exec St asserts n (SLoop St b) st = (loop St n (fun st => execs St asserts n b st) st).
Proof. reflexivity. Qed.
Lemma eq42 : forall  n st, exec St asserts n (SExit St) st = (Ok (st, Exit)).
Proof. reflexivity. Qed.
Lemma eq43 : forall v n st, exec St asserts n (SRet St v) st = (match v with None => Ok (st, Ret None) | Some v => let* (st1, z) := v st in Ok (st1, Ret (Some z)) end).
Proof. reflexivity. Qed.
Lemma eq44 : forall k n st, exec St asserts n (SHalt St k) st = (Trap k).
Proof. reflexivity. Qed.
Lemma eq45 : forall t k n st, exec St asserts n (SAssert St t k) st = (if asserts then let* (st1, t) := t st in if t then Ok (st1, Norm) else Trap k else Ok (st, Norm)).
Proof. reflexivity. Qed.
Lemma eq46 : forall n st, execs St asserts n (Nil St) st = Ok (st, Norm).
Proof. reflexivity. Qed.
Lemma eq47 : forall s r n st, execs St asserts n (Cons St s r) st = (let* (st1, o) := exec St asserts n s st in match o with Norm => execs St asserts n r st1 | _ => Ok (st1, o) end).
Proof. reflexivity. Qed.
Lemma eq48 : forall e n st, exec_arms St asserts n (ANil St) e st = e st.
Proof. reflexivity. Qed.
Lemma eq49 : forall t b r e n st, exec_arms St asserts n (ACons St t b r) e st = (let* (st1, t) := t st in if t then execs St asserts n b st1 else exec_arms St asserts n r e st1).
Proof. reflexivity. Qed.
Lemma eq50 : forall v e n st, exec_cases St asserts n v (CNil St) e st = e st.
Proof. reflexivity. Qed.
Lemma eq51 : forall v l b r e n st, exec_cases St asserts n v (CCons St l b r) e st = (if in_ranges v l then execs St asserts n b st else exec_cases St asserts n v r e st).
Proof. reflexivity. Qed.
#[local] Hint Rewrite eq35 eq36 eq37 eq38 eq39 eq40 eq41 eq42 eq43 eq44 eq45 eq46 eq47 eq48 eq49 eq50 eq51 : execdb.
Lemma eq52 : forall f g, gen (SAct St f) g = (([CAct St f], g)).
Proof. reflexivity. Qed.
Lemma eq53 : forall a e g, gen (SIf St a e) g = (let (cs, g1) := gen_arms a g in let (ce, g2) := gen_seq e g1 in (cs ce, g2)).
Proof. reflexivity. Qed.
Lemma eq54 : forall x c els e g, gen (SCase St x c els e) g = (let (cs, g1) := gen_cases c (inc_level g) in if els then let (ce, g2) := gen_seq e g1 in ([CSwitch St x (cs ++ CDefault St :: ce ++ [CBreak St])], dec_level g2) else ([CSwitch St x (cs ++ [CDefault St; CHalt St (-4)])], dec_level g1)).
Proof. reflexivity. Qed.
Lemma eq55 : forall a els e g, gen (SWith St a els e) g = (let (cs, g1) := gen_arms a g in if els then let (ce, g2) := gen_seq e g1 in (cs ce, g2) else (cs [CHalt St (-7)], g1)).
Proof. reflexivity. Qed.
Lemma eq56 : forall t b g, gen (SWhile St t b) g = (let (cb, g1) := gen_seq b (inc_level g) in ([CWhile St t cb], dec_level g1)).
Proof. reflexivity. Qed.
Lemma eq57 : forall b t g, gen (SRepeat St b t) g = (let (cb, g1) := gen_seq b (inc_level g) in ([CDo St cb t], dec_level g1)).
Proof. reflexivity. Qed.
Lemma eq58 : forall b g, gen (SLoop St b) g = (let (cb, g1) := gen_seq b (mkG 0 (-1) (g_count g)) in (CFor St cb :: (if g_label g1 =? -1 then [] else [CLabel St (g_label g1)]), mkG (g_level g) (g_label g) (g_count g1))).
Proof. reflexivity. Qed.
Lemma eq59 : forall  g, gen (SExit St) g = (if g_level g =? 0 then ([CBreak St], g) else let g1 := if g_label g =? -1 then mkG (g_level g) (g_count g) (wrap_s 16 (g_count g + 1)) else g in ([CGoto St (g_label g1)], g1)).
Proof. reflexivity. Qed.
Lemma eq60 : forall v g, gen (SRet St v) g = (([CReturn St v], g)).
Proof. reflexivity. Qed.
Lemma eq61 : forall k g, gen (SHalt St k) g = (([CHalt St k], g)).
Proof. reflexivity. Qed.
Lemma eq62 : forall t k g, gen (SAssert St t k) g = (((if asserts then [CIf St t [] [CHalt St k]] else []), g)).
Proof. reflexivity. Qed.
Lemma eq63 : forall g, gen_seq (Nil St) g = ([], g).
Proof. reflexivity. Qed.
Lemma eq64 : forall s r g, gen_seq (Cons St s r) g = (let (cs, g1) := gen s g in let (cr, g2) := gen_seq r g1 in (cs ++ cr, g2)).
Proof. reflexivity. Qed.
Lemma eq65 : forall g, gen_arms (ANil St) g = (fun e => e, g).
Proof. reflexivity. Qed.
Lemma eq66 : forall t b r g, gen_arms (ACons St t b r) g = (let (cb, g1) := gen_seq b g in let (cr, g2) := gen_arms r g1 in (fun e => [CIf St t cb (cr e)], g2)).
Proof. reflexivity. Qed.
Lemma eq67 : forall g, gen_cases (CNil St) g = ([], g).
Proof. reflexivity. Qed.
Lemma eq68 : forall l b r g, gen_cases (CCons St l b r) g = (let (cb, g1) := gen_seq b g in let (cr, g2) := gen_cases r g1 in (flat_map (range_labels St) l ++ cb ++ CBreak St :: cr, g2)).
Proof. reflexivity. Qed.
#[local] Hint Rewrite eq52 eq53 eq54 eq55 eq56 eq57 eq58 eq59 eq60 eq61 eq62 eq63 eq64 eq65 eq66 eq67 eq68 : gendb.

(** ** Labels and gotos in C code *)
Fixpoint labels (s : cstm St) : list Z :=
  match s with
  | CIf _ _ a b => flat_map labels a ++ flat_map labels b
  | CSwitch _ _ b | CWhile _ _ b | CDo _ b _ | CFor _ b => flat_map labels b
  | CLabel _ l => [l]
  | _ => []
  end.

Fixpoint gotos (s : cstm St) : list Z :=
  match s with
  | CIf _ _ a b => flat_map gotos a ++ flat_map gotos b
  | CSwitch _ _ b | CWhile _ _ b | CDo _ b _ | CFor _ b => flat_map gotos b
  | CGoto _ l => [l]
  | _ => []
  end.

(** break stands inside a loop or a switch. *)
Fixpoint breaks (d : bool) (s : cstm St) : bool :=
  match s with
  | CIf _ _ a b => forallb (breaks d) a && forallb (breaks d) b
  | CSwitch _ _ b | CWhile _ _ b | CDo _ b _ | CFor _ b => forallb (breaks true) b
  | CBreak _ => d
  | _ => true
  end.

(** ** Runs of C statements *)
Lemma seq_app : forall ex a b st, seq St ex MRun (a ++ b) st =
  bind (seq St ex MRun a st) (fun x => match snd x with
    | ONorm => seq St ex MRun b (fst x) | OGoto k => seq St ex (MGoto k) b (fst x) | o => Ok (fst x, o) end).
Proof.
  intros ex a b. cut (forall m st, (m = MRun \/ exists k, m = MGoto k) -> seq St ex m (a ++ b) st =
    bind (seq St ex m a st) (fun x => match snd x with
      | ONorm => seq St ex MRun b (fst x) | OGoto k => seq St ex (MGoto k) b (fst x) | o => Ok (fst x, o) end)); [eauto|].
  induction a as [|s a IH]; intros m st [->|(k & ->)]; cbn [app seq].
  - reflexivity.
  - reflexivity.
  - destruct (ex s st) as [[st1 o]|c| |]; cbn [bind]; try reflexivity. destruct o; cbn [bind fst snd]; eauto.
  - destruct (hit St (MGoto k) s); eauto.
Qed.

Lemma seq_one : forall ex s st, seq St ex MRun [s] st = ex s st.
Proof. intros. cbn [seq]. destruct (ex s st) as [[st1 o]|c| |]; cbn [bind]; try reflexivity. destruct o; reflexivity. Qed.

Lemma seq_skip : forall ex k l st, ~ In k (flat_map labels l) -> seq St ex (MGoto k) l st = Ok (st, OGoto k).
Proof.
  intros ex k. induction l as [|s l IH]; intros st H; cbn [seq]; [reflexivity|].
  cbn [flat_map] in H. rewrite in_app_iff in H. destruct (hit St (MGoto k) s) eqn:E; [|apply IH; tauto].
  destruct s; cbn in E; try discriminate. apply Z.eqb_eq in E. subst. exfalso. apply H. left. now left.
Qed.

Definition plain (m : entry) : Prop := match m with MCase _ | MDefault => True | _ => False end.

Lemma seq_miss : forall ex m a b st, plain m -> existsb (hit St m) a = false ->
  seq St ex m (a ++ b) st = seq St ex m b st.
Proof.
  intros ex m. induction a as [|s a IH]; intros b st M H; [reflexivity|]. cbn [existsb] in H.
  apply orb_false_iff in H. destruct H as (H1 & H2). cbn [app seq]. destruct m; try contradiction; rewrite H1; auto.
Qed.

(** Case labels *)
Lemma run_expand : forall n k low r st,
  seq St (c_exec St n) MRun (expand St k low ++ r) st = seq St (c_exec St n) MRun r st.
Proof. intros n. induction k as [|k IH]; intros low r st; [reflexivity|]. cbn. apply IH. Qed.

Lemma run_ranges : forall n l r st,
  seq St (c_exec St n) MRun (flat_map (range_labels St) l ++ r) st = seq St (c_exec St n) MRun r st.
Proof.
  intros n. induction l as [|[lo hi] l IH]; intros r st; [reflexivity|]. cbn [flat_map]. rewrite <- app_assoc.
  unfold range_labels at 1. rewrite run_expand. apply IH.
Qed.

Lemma hit_expand : forall v k low, existsb (hit St (MCase v)) (expand St k low) = (low <=? v) && (v <? low + Z.of_nat k).
Proof.
  intros v. induction k as [|k IH]; intros low; cbn [expand existsb hit].
  - destruct (low <=? v) eqn:E; [|reflexivity]. apply Z.leb_le in E. symmetry. apply Z.ltb_ge. lia.
  - rewrite IH. destruct (v =? low) eqn:E1, (low + 1 <=? v) eqn:E2, (low <=? v) eqn:E3,
      (v <? low + 1 + Z.of_nat k) eqn:E4, (v <? low + Z.of_nat (S k)) eqn:E5; try reflexivity; exfalso; lia.
Qed.

Lemma hit_range : forall v r, existsb (hit St (MCase v)) (range_labels St r) = (fst r <=? v) && (v <=? snd r).
Proof.
  intros v [lo hi]. unfold range_labels. rewrite hit_expand. cbn [fst snd].
  destruct (lo <=? v) eqn:E1; [|reflexivity]. cbn [andb].
  destruct (v <=? hi) eqn:E2; [apply Z.ltb_lt | apply Z.ltb_ge]; lia.
Qed.

Lemma hit_ranges : forall v l, existsb (hit St (MCase v)) (flat_map (range_labels St) l) = in_ranges v l.
Proof.
  intros v. induction l as [|r l IH]; [reflexivity|]. cbn [flat_map in_ranges existsb].
  now rewrite existsb_app, IH, hit_range.
Qed.

Lemma enter_expand : forall n v k low r st, existsb (hit St (MCase v)) (expand St k low) = true ->
  seq St (c_exec St n) (MCase v) (expand St k low ++ r) st = seq St (c_exec St n) MRun r st.
Proof.
  intros n v. induction k as [|k IH]; intros low r st H; cbn [expand existsb] in H; [discriminate|].
  cbn [expand app seq]. destruct (hit St (MCase v) (CCase St low)); [apply run_expand | apply IH; exact H].
Qed.

Lemma enter_ranges : forall n v l r st, in_ranges v l = true ->
  seq St (c_exec St n) (MCase v) (flat_map (range_labels St) l ++ r) st = seq St (c_exec St n) MRun r st.
Proof.
  intros n v. induction l as [|x l IH]; intros r st H; [discriminate|]. cbn [flat_map]. rewrite <- app_assoc.
  cbn [in_ranges existsb] in H. rewrite <- hit_range in H. destruct (existsb (hit St (MCase v)) (range_labels St x)) eqn:E.
  - unfold range_labels at 1. rewrite enter_expand by exact E. apply run_ranges.
  - rewrite seq_miss by (exact I || exact E). apply IH. exact H.
Qed.

Lemma labels_expand : forall k low, flat_map labels (expand St k low) = [].
Proof. induction k as [|k IH]; intros low; [reflexivity|]. cbn. apply IH. Qed.
Lemma labels_ranges : forall l, flat_map labels (flat_map (range_labels St) l) = [].
Proof. induction l as [|r l IH]; [reflexivity|]. cbn [flat_map]. rewrite flat_map_app, IH, app_nil_r. apply labels_expand. Qed.
Lemma gotos_expand : forall k low, flat_map gotos (expand St k low) = [].
Proof. induction k as [|k IH]; intros low; [reflexivity|]. cbn. apply IH. Qed.
Lemma gotos_ranges : forall l, flat_map gotos (flat_map (range_labels St) l) = [].
Proof. induction l as [|r l IH]; [reflexivity|]. cbn [flat_map]. rewrite flat_map_app, IH, app_nil_r. apply gotos_expand. Qed.
Lemma breaks_ranges : forall d l, forallb (breaks d) (flat_map (range_labels St) l) = true.
Proof.
  intros d. induction l as [|r l IH]; [reflexivity|]. cbn [flat_map]. rewrite forallb_app, IH, andb_true_r.
  unfold range_labels. generalize (Z.to_nat (snd r + 1 - fst r)). generalize (fst r). intros low k. revert low. induction k as [|k IHk]; intros low; [reflexivity|]. cbn. apply IHk.
Qed.
Lemma default_ranges : forall l, existsb (hit St MDefault) (flat_map (range_labels St) l) = false.
Proof.
  induction l as [|r l IH]; [reflexivity|]. cbn [flat_map]. rewrite existsb_app, IH, orb_false_r.
  unfold range_labels. generalize (Z.to_nat (snd r + 1 - fst r)). generalize (fst r). intros low k. revert low. induction k as [|k IHk]; intros low; [reflexivity|]. cbn. apply IHk.
Qed.

(** ** The state of the generator *)
Definition need (g : gst) : Z := if g_label g =? -1 then 1 else 0.
Definition gwf (g : gst) : Prop := 0 <= g_level g /\ -1 <= g_label g < g_count g /\ 0 <= g_count g.

Lemma NoDup_app : forall (a b : list Z), NoDup a -> NoDup b -> (forall x, In x a -> In x b -> False) -> NoDup (a ++ b).
Proof.
  induction a as [|x a IH]; intros b A B H; [assumption|]. inversion A; subst. cbn. constructor.
  - rewrite in_app_iff. intros [K|K]; [contradiction|]. apply (H x); [now left | assumption].
  - apply IH; [assumption..|]. intros y Y1 Y2. apply (H y); [now right | assumption].
Qed.

(** What a piece of code with labels [L] and gotos [G] does to the state. *)
Record step (k : Z) (g g' : gst) (L G : list Z) : Prop := {
  e_level : g_level g' = g_level g;
  e_wf : gwf g';
  e_count : g_count g <= g_count g';
  e_pot : g_count g' + need g' <= g_count g + need g + k;
  e_label : g_label g' = g_label g \/ (g_label g = -1 /\ g_count g <= g_label g');
  e_in : forall l, In l L -> g_count g <= l < g_count g' /\ l <> g_label g';
  e_nodup : NoDup L;
  e_goto : forall l, In l G -> In l L \/ (l = g_label g' /\ l <> -1) }.

Lemma step_trans : forall k1 k2 a b c L1 L2 G1 G2, step k1 a b L1 G1 -> step k2 b c L2 G2 ->
  step (k1 + k2) a c (L1 ++ L2) (G1 ++ G2).
Proof.
  intros k1 k2 a b c L1 L2 G1 G2 [A1 A2 A3 A4 A5 A6 A7 A8] [B1 B2 B3 B4 B5 B6 B7 B8].
  destruct A2 as (A21 & A22 & A23). destruct B2 as (B21 & B22 & B23). split.
  - congruence.
  - split; [|split]; lia.
  - lia.
  - lia.
  - destruct A5 as [A5|A5], B5 as [B5|B5]; [left; congruence | right; split; lia | right; split; lia | right; split; lia].
  - intros l. rewrite in_app_iff. intros [H|H].
    + apply A6 in H. split; [lia|]. destruct B5 as [B5|B5]; [rewrite B5; tauto | lia].
    + apply B6 in H. split; [lia|tauto].
  - apply NoDup_app; [assumption..|]. intros x X1 X2. apply A6 in X1. apply B6 in X2. lia.
  - intros l. rewrite !in_app_iff. intros [H|H].
    + apply A8 in H. destruct H as [H|(H1 & H2)]; [tauto|]. right. split; [|assumption].
      destruct B5 as [B5|B5]; [congruence | exfalso; lia].
    + apply B8 in H. tauto.
Qed.

Lemma step_refl : forall g, gwf g -> step 0 g g [] [].
Proof.
  intros g W. split; try reflexivity; try lia; try tauto; try (intros l []). constructor.
Qed.

Lemma step_level : forall k g g' L G, step k (inc_level g) g' L G -> 0 <= g_level g -> step k g (dec_level g') L G.
Proof.
  intros k g g' L G [A1 A2 A3 A4 A5 A6 A7 A8] W. destruct A2 as (A21 & A22 & A23).
  unfold inc_level, dec_level, need in *. cbn [g_level g_label g_count] in *.
  split; unfold gwf, need; cbn [g_level g_label g_count]; try assumption; try lia.
Qed.

Lemma gwf_inc : forall g, gwf g -> gwf (inc_level g).
Proof. intros g (A & B & C). unfold gwf, inc_level. cbn. split; [lia|]. split; assumption. Qed.

Definition F_stat (s : stat St) := forall g, gwf g -> g_count g + need g + loops St s <= 32767 ->
  step (loops St s) g (snd (gen s g)) (flat_map labels (fst (gen s g))) (flat_map gotos (fst (gen s g))).
Definition F_seq (l : stats St) := forall g, gwf g -> g_count g + need g + loops_l St l <= 32767 ->
  step (loops_l St l) g (snd (gen_seq l g)) (flat_map labels (fst (gen_seq l g))) (flat_map gotos (fst (gen_seq l g))).
Definition F_arms (a : arms St) := forall g, gwf g -> g_count g + need g + loops_a St a <= 32767 ->
  exists L G, step (loops_a St a) g (snd (gen_arms a g)) L G /\
  forall e, flat_map labels (fst (gen_arms a g) e) = L ++ flat_map labels e /\
            flat_map gotos (fst (gen_arms a g) e) = G ++ flat_map gotos e.
Definition F_cases (c : cases St) := forall g, gwf g -> g_count g + need g + loops_c St c <= 32767 ->
  step (loops_c St c) g (snd (gen_cases c g)) (flat_map labels (fst (gen_cases c g))) (flat_map gotos (fst (gen_cases c g))).

Lemma loops_nonneg : (forall s, 0 <= loops St s) /\ (forall l, 0 <= loops_l St l) /\ (forall a, 0 <= loops_a St a) /\
  (forall c, 0 <= loops_c St c).
Proof.
  apply flow_ind; intros; autorewrite with loopsdb; lia.
Qed.

Ltac eqs B := autorewrite with loopsdb in B |- *; autorewrite with gendb execdb.

Lemma facts : (forall s, F_stat s) /\ (forall l, F_seq l) /\ (forall a, F_arms a) /\ (forall c, F_cases c).
Proof.
  destruct loops_nonneg as (N1 & N2 & N3 & N4).
  apply flow_ind; unfold F_stat, F_seq, F_arms, F_cases.
  - intros f g W B. eqs B. apply step_refl; assumption.
  - (* SIf *) intros a IHa e IHe g W B. eqs B. specialize (N3 a). pose proof (N2 e).
    destruct (IHa g W) as (L & G & S1 & E1); [lia|]. destruct (gen_arms a g) as [cs g1]. cbn [fst snd] in *.
    pose proof (IHe g1 (e_wf _ _ _ _ _ S1)) as S2. destruct (gen_seq e g1) as [ce g2]. cbn [fst snd] in *.
    destruct (E1 ce) as (-> & ->). apply (step_trans _ _ _ _ _ _ _ _ _ S1). apply S2. pose proof (e_pot _ _ _ _ _ S1). lia.
  - (* SCase *) intros x c IHc els e IHe g W B. eqs B. pose proof (N4 c). pose proof (N2 e).
    pose proof (IHc (inc_level g) (gwf_inc _ W)) as S1.
    destruct (gen_cases c (inc_level g)) as [cs g1]. cbn [fst snd] in *. specialize (S1 ltac:(unfold need, inc_level in *; cbn in *; lia)).
    destruct els.
    + pose proof (IHe g1 (e_wf _ _ _ _ _ S1)) as S2. destruct (gen_seq e g1) as [ce g2]. cbn [fst snd] in *.
      specialize (S2 ltac:(pose proof (e_pot _ _ _ _ _ S1); unfold need, inc_level in *; cbn in *; lia)).
      cbn [flat_map labels gotos]. rewrite !app_nil_r, !flat_map_app. cbn [flat_map labels gotos]. rewrite !flat_map_app. cbn [flat_map labels gotos app].
      rewrite !app_nil_r. apply step_level; [|apply W]. exact (step_trans _ _ _ _ _ _ _ _ _ S1 S2).
    + cbn [flat_map labels gotos fst snd]. rewrite !app_nil_r, !flat_map_app. cbn [flat_map labels gotos app]. rewrite !app_nil_r.
      apply step_level; [|apply W]. destruct S1 as [A1 A2 A3 A4 A5 A6 A7 A8]. split; try assumption. lia.
  - (* SWith *) intros a IHa els e IHe g W B. eqs B. specialize (N3 a). pose proof (N2 e).
    destruct (IHa g W) as (L & G & S1 & E1); [lia|]. destruct (gen_arms a g) as [cs g1]. cbn [fst snd] in *.
    destruct els.
    + pose proof (IHe g1 (e_wf _ _ _ _ _ S1)) as S2. destruct (gen_seq e g1) as [ce g2]. cbn [fst snd] in *.
      destruct (E1 ce) as (-> & ->). apply (step_trans _ _ _ _ _ _ _ _ _ S1). apply S2. pose proof (e_pot _ _ _ _ _ S1). lia.
    + cbn [fst snd]. destruct (E1 [CHalt St (-7)]) as (-> & ->). cbn. rewrite !app_nil_r.
      destruct S1 as [A1 A2 A3 A4 A5 A6 A7 A8]. split; try assumption. lia.
  - (* SWhile *) intros c b IHb g W B. eqs B. pose proof (IHb (inc_level g) (gwf_inc _ W)) as S1.
    destruct (gen_seq b (inc_level g)) as [cb g1]. cbn [fst snd] in *. cbn [flat_map labels gotos]. rewrite !app_nil_r.
    apply step_level; [|apply W]. apply S1. exact B.
  - (* SRepeat *) intros b IHb c g W B. eqs B. pose proof (IHb (inc_level g) (gwf_inc _ W)) as S1.
    destruct (gen_seq b (inc_level g)) as [cb g1]. cbn [fst snd] in *. cbn [flat_map labels gotos]. rewrite !app_nil_r.
    apply step_level; [|apply W]. apply S1. exact B.
  - (* SLoop *) intros b IHb g W B. eqs B. destruct W as (W1 & W2 & W3).
    assert (W0 : gwf (mkG 0 (-1) (g_count g))) by (split; [|split]; cbn; lia).
    pose proof (IHb _ W0) as S1. destruct (gen_seq b (mkG 0 (-1) (g_count g))) as [cb g1]. cbn [fst snd] in *.
    assert (NN : 0 <= need g) by (unfold need; destruct (g_label g =? -1); lia).
    specialize (S1 ltac:(unfold need at 1; cbn; lia)). destruct S1 as [A1 A2 A3 A4 A5 A6 A7 A8].
    destruct A2 as (A21 & A22 & A23). unfold need in A4 at 2. cbn [g_level g_label g_count] in *. change (-1 =? -1) with true in A4. cbv iota in A4.
    assert (N' : 0 <= need g1) by (unfold need; destruct (g_label g1 =? -1); lia).
    cbn [flat_map labels gotos].
    assert (GO : flat_map gotos (if g_label g1 =? -1 then [] else [CLabel St (g_label g1)]) = []) by (destruct (g_label g1 =? -1); reflexivity).
    rewrite GO, app_nil_r.
    destruct (g_label g1 =? -1) eqn:E.
    + apply Z.eqb_eq in E. cbn [flat_map]. rewrite app_nil_r. split; cbn [g_level g_label g_count].
      * reflexivity.
      * split; [|split]; cbn; lia.
      * lia.
      * unfold need at 1. cbn [g_label]. fold (need g). lia.
      * auto.
      * intros l H. apply A6 in H. destruct H as (H1 & H2). split; [assumption|]. lia.
      * assumption.
      * intros l H. apply A8 in H. destruct H as [H|(H1 & H2)]; [tauto | exfalso; congruence].
    + apply Z.eqb_neq in E. cbn [flat_map labels app]. split; cbn [g_level g_label g_count].
      * reflexivity.
      * split; [|split]; cbn; lia.
      * lia.
      * unfold need at 1. cbn [g_label]. fold (need g). lia.
      * auto.
      * intros l H. apply in_app_iff in H. destruct H as [H|[H|[]]].
        -- apply A6 in H. destruct H as (H1 & H2). split; [assumption|]. lia.
        -- subst l. destruct A5 as [A5|(_ & A5)]; [congruence|]. split; [lia|]. lia.
      * apply NoDup_app; [assumption | repeat constructor; intros [] |]. intros x X1 [X2|[]]. subst x. apply A6 in X1. tauto.
      * intros l H. left. apply in_app_iff. apply A8 in H. destruct H as [H|(H1 & H2)]; [tauto|]. right. left. congruence.
  - (* SExit *) intros g W B. eqs B. destruct W as (W1 & W2 & W3). destruct (g_level g =? 0) eqn:E.
    + cbn [fst snd flat_map labels gotos app]. apply step_refl. split; [|split]; assumption.
    + cbn [fst snd flat_map labels gotos app]. destruct (g_label g =? -1) eqn:EL.
      * unfold need in B. rewrite EL in B. cbv iota in B. apply Z.eqb_eq in EL. cbn [g_label].
        rewrite wrap_s_id by (unfold in_int, min_int, max_int; split; cbn; lia).
        split; unfold gwf, need; cbn [g_level g_label g_count].
        -- reflexivity.
        -- lia.
        -- lia.
        -- rewrite EL. change (-1 =? -1) with true. cbv iota. replace (g_count g =? -1) with false by (symmetry; apply Z.eqb_neq; lia). lia.
        -- lia.
        -- intros l [].
        -- constructor.
        -- intros l [H|[]]. right. split; [congruence | lia].
      * apply Z.eqb_neq in EL. split.
        -- reflexivity.
        -- split; [|split]; assumption.
        -- lia.
        -- lia.
        -- auto.
        -- intros l [].
        -- constructor.
        -- intros l [H|[]]. right. split; congruence.
  - intros v g W B. eqs B. apply step_refl; assumption.
  - intros k g W B. eqs B. apply step_refl; assumption.
  - intros c k g W B. eqs B. destruct asserts; apply step_refl; assumption.
  - intros g W B. eqs B. apply step_refl; assumption.
  - intros s IHs r IHr g W B. eqs B. pose proof (N1 s). pose proof (N2 r). pose proof (IHs g W) as S1.
    destruct (gen s g) as [cs g1]. cbn [fst snd] in *. specialize (S1 ltac:(lia)).
    pose proof (IHr g1 (e_wf _ _ _ _ _ S1)) as S2. destruct (gen_seq r g1) as [cr g2]. cbn [fst snd] in *.
    rewrite !flat_map_app. apply (step_trans _ _ _ _ _ _ _ _ _ S1). apply S2. pose proof (e_pot _ _ _ _ _ S1). lia.
  - intros g W B. eqs B. exists [], []. split; [apply step_refl; assumption | split; reflexivity].
  - intros c b IHb r IHr g W B. eqs B. pose proof (N2 b). pose proof (N3 r). pose proof (IHb g W) as S1.
    destruct (gen_seq b g) as [cb g1]. cbn [fst snd] in *. specialize (S1 ltac:(lia)).
    destruct (IHr g1 (e_wf _ _ _ _ _ S1)) as (L & G & S2 & E2); [pose proof (e_pot _ _ _ _ _ S1); lia|].
    destruct (gen_arms r g1) as [cr g2]. cbn [fst snd] in *.
    exists (flat_map labels cb ++ L), (flat_map gotos cb ++ G). split; [exact (step_trans _ _ _ _ _ _ _ _ _ S1 S2)|].
    intros e. destruct (E2 e) as (F1 & F2). cbn [flat_map labels gotos]. rewrite !app_nil_r, F1, F2, !app_assoc. auto.
  - intros g W B. eqs B. apply step_refl; assumption.
  - intros l b IHb r IHr g W B. eqs B. pose proof (N2 b). pose proof (N4 r). pose proof (IHb g W) as S1.
    destruct (gen_seq b g) as [cb g1]. cbn [fst snd] in *. specialize (S1 ltac:(lia)).
    pose proof (IHr g1 (e_wf _ _ _ _ _ S1)) as S2. destruct (gen_cases r g1) as [cr g2]. cbn [fst snd] in *.
    rewrite !flat_map_app. cbn [flat_map labels gotos app]. rewrite labels_ranges, gotos_ranges. cbn [app].
    apply (step_trans _ _ _ _ _ _ _ _ _ S1). apply S2. pose proof (e_pot _ _ _ _ _ S1). lia.
Qed.

(** No case labels outside switches *)
Lemma no_case : forall m, plain m ->
  (forall s g, existsb (hit St m) (fst (gen s g)) = false) /\ (forall l g, existsb (hit St m) (fst (gen_seq l g)) = false) /\
  (forall a g e, existsb (hit St m) e = false -> existsb (hit St m) (fst (gen_arms a g) e) = false) /\ (forall c : cases St, True).
Proof.
  intros m M.
  apply flow_ind; try exact (fun _ _ => I); try exact I; intros; autorewrite with gendb; auto.
  - destruct m; try contradiction; reflexivity.
  - specialize (H g). destruct (gen_arms a g) as [cs g1]. specialize (H0 g1). destruct (gen_seq e g1) as [ce g2]. cbn [fst] in *. auto.
  - destruct (gen_cases c (inc_level g)) as [cs g1]. destruct els; [destruct (gen_seq e g1) as [ce g2]|]; destruct m; try contradiction; reflexivity.
  - specialize (H g). destruct (gen_arms a g) as [cs g1]. destruct els.
    + specialize (H0 g1). destruct (gen_seq e g1) as [ce g2]. cbn [fst] in *. auto.
    + cbn [fst] in *. apply H. destruct m; try contradiction; reflexivity.
  - destruct (gen_seq b (inc_level g)). destruct m; try contradiction; reflexivity.
  - destruct (gen_seq b (inc_level g)). destruct m; try contradiction; reflexivity.
  - destruct (gen_seq b _) as [cb g1]. cbn [fst]. destruct (g_label g1 =? -1); destruct m; try contradiction; reflexivity.
  - destruct (g_level g =? 0); destruct m; try contradiction; reflexivity.
  - destruct m; try contradiction; reflexivity.
  - destruct m; try contradiction; reflexivity.
  - destruct asserts; destruct m; try contradiction; reflexivity.
  - specialize (H g). destruct (gen s g) as [cs g1]. specialize (H0 g1). destruct (gen_seq r g1) as [cr g2]. cbn [fst] in *.
    now rewrite existsb_app, H, H0.
  - destruct (gen_seq b g) as [cb g1]. destruct (gen_arms r g1) as [cr g2]. destruct m; try contradiction; reflexivity.
Qed.

Lemma no_default : forall c g, existsb (hit St MDefault) (fst (gen_cases c g)) = false.
Proof.
  induction c as [|l b r IH]; intros g; [reflexivity|]. autorewrite with gendb.
  destruct (no_case MDefault I) as (_ & K & _). specialize (K b g). destruct (gen_seq b g) as [cb g1]. specialize (IH g1).
  destruct (gen_cases r g1) as [cr g2]. cbn [fst] in *. rewrite !existsb_app, default_ranges, K. exact IH.
Qed.

(** ** Simulation *)
Definition rel (lv lb : Z) (o : out) (c : cout) : Prop :=
  match o, c with
  | Norm, ONorm => True
  | Ret v, ORet v' => v = v'
  | Exit, OBreak => lv = 0
  | Exit, OGoto k => k = lb /\ lb <> -1
  | _, _ => False
  end.

Definition sim {A B} (R : A -> B -> Prop) (r : res (St * A)) (c : res (St * B)) : Prop :=
  match r, c with
  | Ok (s, o), Ok (s', o') => s = s' /\ R o o'
  | Trap a, Trap b => a = b
  | UB, UB => True
  | Fuel, Fuel => True
  | _, _ => False
  end.

(** An arm of a CASE ends with a break. *)
Definition rel_sw (lb : Z) (o : out) (c : cout) : Prop :=
  match o, c with
  | Norm, OBreak => True
  | Ret v, ORet v' => v = v'
  | Exit, OGoto k => k = lb /\ lb <> -1
  | _, _ => False
  end.

Lemma sim_bind : forall A B C D (Q : A -> B -> Prop) (R : C -> D -> Prop) r c f g, sim Q r c ->
  (forall st o o', r = Ok (st, o) -> c = Ok (st, o') -> Q o o' -> sim R (f (st, o)) (g (st, o'))) -> sim R (bind r f) (bind c g).
Proof.
  intros A B C D Q R r c f g H K. destruct r as [[st o]|x| |], c as [[st' o']|y| |]; cbn in *; try contradiction; auto.
  destruct H as (-> & H). auto.
Qed.

Lemma sim_mono : forall A B (Q R : A -> B -> Prop) r c, (forall o o', Q o o' -> R o o') -> sim Q r c -> sim R r c.
Proof.
  intros A B Q R r c H K. destruct r as [[st o]|x| |], c as [[st' o']|y| |]; cbn in *; try contradiction; auto.
  destruct K; auto.
Qed.

Variable n : nat.
Notation run := (seq St (c_exec St n) MRun).

Lemma while_sim : forall lb c b cb, (forall st, sim (rel 1 lb) (b st) (cb st)) ->
  forall k st, sim (rel 1 lb) (while St k c b st) (c_while St k c cb st).
Proof.
  intros lb c b cb H. induction k as [|k IH]; intros st; cbn [while c_while]; [exact I|].
  destruct (c st) as [[st1 t]|x| |]; cbn [bind]; try exact I; try reflexivity. destruct t; [|split; exact I || reflexivity].
  eapply sim_bind; [apply H|]. intros st2 o o' _ _ R. destruct o, o'; cbn in R; try contradiction; try discriminate; auto; cbn; auto.
Qed.

Lemma do_sim : forall lb c b cb, (forall st, sim (rel 1 lb) (b st) (cb st)) ->
  forall k st, sim (rel 1 lb) (repeat_ St k b c st) (c_do St k cb c st).
Proof.
  intros lb c b cb H. induction k as [|k IH]; intros st; cbn [repeat_ c_do]; [exact I|].
  eapply sim_bind; [apply H|]. intros st2 o o' _ _ R. destruct o, o'; cbn in R; try contradiction; try discriminate; auto; cbn; auto.
  destruct (c st2) as [[st1 t]|x| |]; cbn [bind]; try exact I; try reflexivity. destruct t; cbn; auto.
Qed.

(** The loop itself, before the label *)
Definition rel_loop (lb : Z) (o : out) (c : cout) : Prop :=
  match o, c with
  | Norm, ONorm => True
  | Norm, OGoto k => k = lb /\ lb <> -1
  | Ret v, ORet v' => v = v'
  | _, _ => False
  end.

Lemma for_sim : forall lb b cb, (forall st, sim (rel 0 lb) (b st) (cb st)) ->
  forall k st, sim (rel_loop lb) (loop St k b st) (c_for St k cb st).
Proof.
  intros lb b cb H. induction k as [|k IH]; intros st; cbn [loop c_for]; [exact I|].
  eapply sim_bind; [apply H|]. intros st2 o o' _ _ R. destruct o, o'; cbn in R; try contradiction; try discriminate; auto; cbn; auto.
Qed.

Lemma rel_level : forall lv lb o c, rel 1 lb o c -> rel lv lb o c.
Proof. intros lv lb o c H. destruct o, c; cbn in *; try contradiction; try discriminate; auto. Qed.

(** From inside a loop or CASE, whatever its level, to the place where it stands *)
Lemma rel_in : forall lv lb o c, 0 <= lv -> rel (lv + 1) lb o c -> rel 1 lb o c.
Proof. intros lv lb o c H R. destruct o, c; cbn in *; try contradiction; auto. lia. Qed.

Lemma rel_label : forall lv lb lb' o c, (lb <> -1 -> lb' = lb) -> rel lv lb o c -> rel lv lb' o c.
Proof. intros lv lb lb' o c H R. destruct o, c; cbn in *; try contradiction; auto. destruct R as (-> & R). split; [now rewrite H | now rewrite H]. Qed.

Definition S_stat (s : stat St) := forall g st, gwf g -> g_count g + need g + loops St s <= 32767 ->
  sim (rel (g_level g) (g_label (snd (gen s g)))) (exec St asserts n s st) (run (fst (gen s g)) st).
Definition S_seq (l : stats St) := forall g st, gwf g -> g_count g + need g + loops_l St l <= 32767 ->
  sim (rel (g_level g) (g_label (snd (gen_seq l g)))) (execs St asserts n l st) (run (fst (gen_seq l g)) st).
Definition S_arms (a : arms St) := forall g st e ce lb, gwf g -> g_count g + need g + loops_a St a <= 32767 ->
  (forall st, sim (rel (g_level g) lb) (e st) (run ce st)) ->
  (g_label (snd (gen_arms a g)) <> -1 -> lb = g_label (snd (gen_arms a g))) ->
  sim (rel (g_level g) lb) (exec_arms St asserts n a e st) (run (fst (gen_arms a g) ce) st).
Definition S_cases (c : cases St) := forall g st v e ce lb, gwf g -> 0 < g_level g ->
  g_count g + need g + loops_c St c <= 32767 ->
  (forall st, sim (rel_sw lb) (e st) (run ce st)) ->
  (g_label (snd (gen_cases c g)) <> -1 -> lb = g_label (snd (gen_cases c g))) ->
  (forall l, In l (flat_map labels ce) -> g_count (snd (gen_cases c g)) <= l) ->
  sim (rel_sw lb) (exec_cases St asserts n v c e st)
    (seq St (c_exec St n) (if existsb (hit St (MCase v)) (fst (gen_cases c g)) then MCase v else MDefault)
       (fst (gen_cases c g) ++ CDefault St :: ce) st).

Lemma later_label : forall k g g' L G, step k g g' L G -> g_label g <> -1 -> g_label g' = g_label g.
Proof. intros k g g' L G S H. destruct (e_label _ _ _ _ _ S) as [E|(E & _)]; [assumption | congruence]. Qed.

Lemma simulation : (forall s, S_stat s) /\ (forall l, S_seq l) /\ (forall a, S_arms a) /\ (forall c, S_cases c).
Proof.
  destruct loops_nonneg as (N1 & N2 & N3 & N4). destruct facts as (F1 & F2 & F3 & F4).
  apply flow_ind; unfold S_stat, S_seq, S_arms, S_cases.
  - intros f g st W B. eqs B. cbn [fst snd]. rewrite seq_one. cbn [c_exec]. destruct (f st); cbn; auto.
  - (* SIf *) intros a IHa e IHe g st W B. eqs B. specialize (N3 a). pose proof (N2 e).
    specialize (IHa g st (fun st => execs St asserts n e st)).
    destruct (F3 a g W) as (L & G & S1 & _); [lia|]. destruct (gen_arms a g) as [cs g1]. cbn [fst snd] in *.
    pose proof (e_wf _ _ _ _ _ S1) as W1. pose proof (e_pot _ _ _ _ _ S1) as P1. rewrite (eq_sym (e_level _ _ _ _ _ S1)) in *.
    specialize (F2 e g1 W1). specialize (fun st => IHe g1 st W1). destruct (gen_seq e g1) as [ce g2]. cbn [fst snd] in *.
    specialize (F2 ltac:(lia)). apply IHa; [assumption | lia | intros st'; apply IHe; lia |].
    intros H1. exact (later_label _ _ _ _ _ F2 H1).
  - (* SCase *) intros x c IHc els e IHe g st W B. eqs B. pose proof (N4 c) as NC. pose proof (N2 e) as NE.
    pose proof (gwf_inc _ W) as W0. pose proof (F4 c _ W0) as S1.
    assert (LV : 0 < g_level (inc_level g)) by (destruct W; cbn; lia).
    assert (NI : need (inc_level g) = need g) by reflexivity.
    specialize (fun v st1 e ce lb => IHc (inc_level g) st1 v e ce lb W0 LV).
    pose proof (no_default c (inc_level g)) as ND.
    destruct (gen_cases c (inc_level g)) as [cs g1]. cbn [fst snd] in *. specialize (S1 ltac:(cbn [g_count inc_level] in *; lia)).
    pose proof (e_wf _ _ _ _ _ S1) as W1. pose proof (e_pot _ _ _ _ _ S1) as P1.
    assert (KEY : forall ec ce lb, (forall v, existsb (hit St (MCase v)) ce = false) -> (forall st, sim (rel_sw lb) (ec st) (run ce st)) ->
       (g_label g1 <> -1 -> lb = g_label g1) -> (forall l, In l (flat_map labels ce) -> g_count g1 <= l) ->
       sim (rel (g_level g) lb) (let* (st1, v) := x st in exec_cases St asserts n v c ec st1)
         (run [CSwitch St x (cs ++ CDefault St :: ce)] st)).
    { intros ec ce lb NO SE LB LL. rewrite seq_one. cbn [c_exec].
      destruct (x st) as [[st1 v]|z| |]; cbn [bind]; try exact I; try reflexivity.
      specialize (IHc v st1 ec ce lb ltac:(cbn [g_count inc_level] in *; lia) SE LB LL).
      unfold choose. rewrite !existsb_app. cbn [existsb hit]. rewrite NO, ND, orb_false_r, orb_true_r.
      set (m := if existsb (hit St (MCase v)) cs then MCase v else MDefault) in *.
      replace (if existsb (hit St (MCase v)) cs then Some (MCase v) else Some MDefault) with (Some m)
        by (unfold m; destruct (existsb (hit St (MCase v)) cs); reflexivity).
      destruct (exec_cases St asserts n v c ec st1) as [[st2 o]|z| |], (seq St (c_exec St n) m (cs ++ CDefault St :: ce) st1) as [[st3 o']|z'| |];
        cbn [sim bind] in *; try contradiction; try assumption.
      destruct IHc as (-> & IHc). destruct o, o'; cbn in IHc; try contradiction; cbn; auto. }
    destruct els.
    + assert (HB : g_count g1 + need g1 + loops_l St e <= 32767) by (cbn [g_count inc_level] in *; lia).
      pose proof (F2 e g1 W1 HB) as S2. specialize (fun st => IHe g1 st W1 HB).
      destruct (no_case (MCase 0) I) as (_ & NS & _ & _). clear NS.
      assert (NS : forall v, existsb (hit St (MCase v)) (fst (gen_seq e g1)) = false) by (intros v; apply (no_case (MCase v) I)).
      destruct (gen_seq e g1) as [ce g2]. cbn [fst snd] in *. cbn [dec_level g_label].
      apply KEY.
      * intros v. now rewrite existsb_app, NS.
      * intros st'. rewrite seq_app. specialize (IHe st'). rewrite (e_level _ _ _ _ _ S1) in IHe.
        destruct (execs St asserts n e st') as [[st2 o]|z| |], (run ce st') as [[st3 o']|z'| |];
          cbn [sim bind] in *; try contradiction; try assumption.
        destruct IHe as (-> & IHe). destruct o, o'; cbn in IHe; try contradiction; cbn; auto. destruct W as (W & _). lia.
      * exact (later_label _ _ _ _ _ S2).
      * intros l. rewrite flat_map_app. cbn. rewrite app_nil_r. intros H. apply (e_in _ _ _ _ _ S2) in H. lia.
    + cbn [fst snd dec_level g_label]. apply KEY; [reflexivity | intros st'; reflexivity | reflexivity | intros l []].
  - (* SWith *) intros a IHa els e IHe g st W B. eqs B. specialize (N3 a). pose proof (N2 e).
    specialize (IHa g st (fun st => if els then execs St asserts n e st else Trap (-7))).
    destruct (F3 a g W) as (L & G & S1 & _); [lia|]. destruct (gen_arms a g) as [cs g1]. cbn [fst snd] in *.
    pose proof (e_wf _ _ _ _ _ S1) as W1. pose proof (e_pot _ _ _ _ _ S1) as P1. rewrite (eq_sym (e_level _ _ _ _ _ S1)) in *.
    destruct els.
    + specialize (F2 e g1 W1). specialize (fun st => IHe g1 st W1). destruct (gen_seq e g1) as [ce g2]. cbn [fst snd] in *.
      specialize (F2 ltac:(lia)). apply IHa; [assumption | lia | intros st'; apply IHe; lia |].
      intros H1. exact (later_label _ _ _ _ _ F2 H1).
    + cbn [fst snd]. apply IHa; [assumption | lia | intros st'; reflexivity | reflexivity].
  - (* SWhile *) intros c b IHb g st W B. eqs B. pose proof (gwf_inc _ W) as W0. specialize (fun st => IHb (inc_level g) st W0 B).
    destruct (gen_seq b (inc_level g)) as [cb g1]. cbn [fst snd dec_level g_label] in *. rewrite seq_one. cbn [c_exec].
    eapply sim_mono; [intros o o'; apply rel_level|]. apply while_sim. intros st'.
    eapply sim_mono; [|apply IHb]. intros o o'. apply rel_in. apply W.
  - (* SRepeat *) intros b IHb c g st W B. eqs B. pose proof (gwf_inc _ W) as W0. specialize (fun st => IHb (inc_level g) st W0 B).
    destruct (gen_seq b (inc_level g)) as [cb g1]. cbn [fst snd dec_level g_label] in *. rewrite seq_one. cbn [c_exec].
    eapply sim_mono; [intros o o'; apply rel_level|]. apply do_sim. intros st'.
    eapply sim_mono; [|apply IHb]. intros o o'. apply rel_in. apply W.
  - (* SLoop *) intros b IHb g st W B. eqs B. destruct W as (W1 & W2 & W3).
    assert (W0 : gwf (mkG 0 (-1) (g_count g))) by (split; [|split]; cbn; lia).
    assert (NN : 0 <= need g) by (unfold need; destruct (g_label g =? -1); lia).
    assert (HB : g_count (mkG 0 (-1) (g_count g)) + need (mkG 0 (-1) (g_count g)) + loops_l St b <= 32767) by (unfold need at 1; cbn; lia).
    specialize (fun st => IHb _ st W0 HB). destruct (gen_seq b (mkG 0 (-1) (g_count g))) as [cb g1]. cbn [fst snd g_level g_label] in *.
    change (CFor St cb :: (if g_label g1 =? -1 then [] else [CLabel St (g_label g1)]))
      with ([CFor St cb] ++ (if g_label g1 =? -1 then [] else [CLabel St (g_label g1)])).
    rewrite seq_app, seq_one. cbn [c_exec]. pose proof (for_sim _ _ _ IHb n st) as FS.
    destruct (loop St n (fun st => execs St asserts n b st) st) as [[st2 o]|z| |], (c_for St n (run cb) st) as [[st3 o']|z'| |];
      cbn [sim bind] in *; try contradiction; try assumption.
    destruct FS as (-> & FS). destruct o, o'; cbn in FS; try contradiction; cbn [snd fst].
    + destruct (g_label g1 =? -1); cbn; auto.
    + destruct FS as (-> & FS). replace (g_label g1 =? -1) with false by (symmetry; now apply Z.eqb_neq).
      cbn. rewrite Z.eqb_refl. cbn. auto.
    + subst. cbn. auto.
  - (* SExit *) intros g st W B. eqs B. destruct W as (W1 & W2 & W3). destruct (g_level g =? 0) eqn:E.
    + apply Z.eqb_eq in E. cbn. auto.
    + cbn [fst snd]. rewrite seq_one. cbn. split; [reflexivity|]. split; [reflexivity|].
      destruct (g_label g =? -1) eqn:EL; cbn; [lia|]. now apply Z.eqb_neq.
  - intros v g st W B. eqs B. cbn [fst snd]. rewrite seq_one. cbn [c_exec]. destruct v as [v|]; [|cbn; auto].
    destruct (v st) as [[st1 z]|c| |]; cbn; auto.
  - intros k g st W B. eqs B. cbn. reflexivity.
  - intros c k g st W B. eqs B. destruct asserts; cbn [fst snd]; [|cbn; auto]. rewrite seq_one. cbn [c_exec].
    destruct (c st) as [[st1 t]|z| |]; cbn; auto. destruct t; cbn; auto.
  - intros g st W B. eqs B. cbn. auto.
  - intros s IHs r IHr g st W B. eqs B. pose proof (N1 s). pose proof (N2 r). pose proof (F1 s g W) as S1.
    specialize (IHs g st W). destruct (gen s g) as [cs g1]. cbn [fst snd] in *. specialize (S1 ltac:(lia)). specialize (IHs ltac:(lia)).
    pose proof (e_wf _ _ _ _ _ S1) as W1. pose proof (e_pot _ _ _ _ _ S1) as P1.
    pose proof (F2 r g1 W1) as S2. specialize (fun st => IHr g1 st W1).
    destruct (gen_seq r g1) as [cr g2]. cbn [fst snd] in *. specialize (S2 ltac:(lia)). rewrite seq_app.
    assert (LB := later_label _ _ _ _ _ S2).
    eapply sim_bind; [exact IHs|]. intros st1 o o' _ _ R. cbn [fst snd]. destruct o, o'; cbn in R; try contradiction.
    + rewrite <- (e_level _ _ _ _ _ S1). apply IHr. lia.
    + cbn. auto.
    + destruct R as (-> & R). rewrite seq_skip.
      * cbn. rewrite LB by assumption. auto.
      * intros H1. apply (e_in _ _ _ _ _ S2) in H1. destruct W1 as (_ & W1 & _). lia.
    + cbn. auto.
  - intros g st e ce lb W B SE LB. eqs B. autorewrite with gendb in LB. cbn [fst snd]. apply SE.
  - intros c b IHb r IHr g st e ce lb W B SE LB. eqs B. autorewrite with gendb in LB. pose proof (N2 b). pose proof (N3 r). pose proof (F2 b g W) as S1.
    specialize (fun st => IHb g st W). destruct (gen_seq b g) as [cb g1]. cbn [fst snd] in *.
    specialize (S1 ltac:(lia)). specialize (fun st => IHb st ltac:(lia)).
    pose proof (e_wf _ _ _ _ _ S1) as W1. pose proof (e_pot _ _ _ _ _ S1) as P1.
    destruct (F3 r g1 W1) as (L & G & S2 & _); [lia|].
    specialize (fun st => IHr g1 st e ce lb W1). destruct (gen_arms r g1) as [cr g2]. cbn [fst snd] in *.
    rewrite seq_one. cbn [c_exec]. destruct (c st) as [[st1 t]|z| |]; cbn [bind]; try exact I; try reflexivity.
    destruct t.
    + eapply sim_mono; [|apply IHb]. intros o o'. apply rel_label. intros H1. rewrite LB.
      * exact (later_label _ _ _ _ _ S2 H1).
      * rewrite (later_label _ _ _ _ _ S2 H1). exact H1.
    + rewrite <- (e_level _ _ _ _ _ S1) in *. apply IHr; [lia | exact SE | exact LB].
  - intros g st v e ce lb W LV B SE LB LL. eqs B. autorewrite with gendb in LB, LL. cbn [fst snd existsb app seq hit]. apply SE.
  - intros l b IHb r IHr g st v e ce lb W LV B SE LB LL. eqs B. autorewrite with gendb in LB, LL. pose proof (N2 b). pose proof (N4 r). pose proof (F2 b g W) as S1.
    specialize (fun st => IHb g st W). pose proof (proj1 (proj2 (no_case (MCase v) I)) b g) as NB.
    pose proof (proj1 (proj2 (no_case MDefault I)) b g) as NB'.
    destruct (gen_seq b g) as [cb g1]. cbn [fst snd] in *.
    specialize (S1 ltac:(lia)). specialize (fun st => IHb st ltac:(lia)).
    pose proof (e_wf _ _ _ _ _ S1) as W1. pose proof (e_pot _ _ _ _ _ S1) as P1.
    assert (HB : g_count g1 + need g1 + loops_c St r <= 32767) by lia.
    pose proof (F4 r g1 W1 HB) as S2. rewrite <- (e_level _ _ _ _ _ S1) in LV.
    specialize (fun st => IHr g1 st v e ce lb W1 LV HB SE). destruct (gen_cases r g1) as [cr g2]. cbn [fst snd] in *.
    specialize (fun st => IHr st LB LL). rewrite !existsb_app, hit_ranges, NB. cbn [existsb hit orb].
    rewrite <- !app_assoc. cbn [app].
    destruct (in_ranges v l) eqn:IR; cbn [orb].
    + rewrite enter_ranges by assumption. rewrite seq_app. specialize (IHb st).
      destruct (execs St asserts n b st) as [[st2 o]|z| |], (run cb st) as [[st3 o']|z'| |];
        cbn [sim bind] in *; try contradiction; try assumption.
      destruct IHb as (-> & R). destruct o, o'; cbn in R; try contradiction; cbn [snd fst].
      * cbn. auto.
      * rewrite (e_level _ _ _ _ _ S1) in LV. lia.
      * destruct R as (-> & R). rewrite seq_skip.
        -- cbn. split; [reflexivity|]. rewrite LB; rewrite (later_label _ _ _ _ _ S2 R); auto.
        -- cbn [flat_map labels app]. rewrite flat_map_app, in_app_iff. cbn [flat_map labels app]. destruct W1 as (_ & W1 & _).
           intros [K|K]; [apply (e_in _ _ _ _ _ S2) in K; lia|]. apply LL in K. pose proof (e_count _ _ _ _ _ S2). lia.
      * cbn. auto.
    + specialize (IHr st). destruct (existsb (hit St (MCase v)) cr) eqn:EC.
      * rewrite seq_miss; [|exact I|now rewrite hit_ranges]. rewrite seq_miss by (exact I || exact NB). exact IHr.
      * rewrite seq_miss; [|exact I|apply default_ranges]. rewrite seq_miss by (exact I || exact NB'). exact IHr.
Qed.

(** ** EXIT inside LOOP only *)
Lemma and_true : forall a b, a && b = true -> a = true /\ b = true.
Proof. intros a b. now rewrite andb_true_iff. Qed.

Lemma no_label :
  (forall s g, ok_stat St false s = true -> g_label (snd (gen s g)) = g_label g) /\
  (forall l g, ok_stats St false l = true -> g_label (snd (gen_seq l g)) = g_label g) /\
  (forall a g, ok_arms St false a = true -> g_label (snd (gen_arms a g)) = g_label g) /\
  (forall c g, ok_cases St false c = true -> g_label (snd (gen_cases c g)) = g_label g).
Proof.
  apply flow_ind; try (intros; autorewrite with gendb; reflexivity).
  - intros a IHa e IHe g H. autorewrite with okdb in H. apply and_true in H. destruct H as (H1 & H2). autorewrite with gendb.
    specialize (IHa g H1). destruct (gen_arms a g) as [cs g1]. specialize (IHe g1 H2). destruct (gen_seq e g1) as [ce g2]. cbn in *. congruence.
  - intros x c IHc els e IHe g H. autorewrite with okdb in H. apply and_true in H. destruct H as (H1 & H2). autorewrite with gendb.
    specialize (IHc (inc_level g) H1). destruct (gen_cases c (inc_level g)) as [cs g1]. specialize (IHe g1 H2).
    destruct els; [destruct (gen_seq e g1) as [ce g2]|]; cbn in *; congruence.
  - intros a IHa els e IHe g H. autorewrite with okdb in H. apply and_true in H. destruct H as (H1 & H2). autorewrite with gendb.
    specialize (IHa g H1). destruct (gen_arms a g) as [cs g1]. specialize (IHe g1 H2).
    destruct els; [destruct (gen_seq e g1) as [ce g2]|]; cbn in *; congruence.
  - intros c b IHb g H. autorewrite with okdb in H. autorewrite with gendb. specialize (IHb (inc_level g) H).
    destruct (gen_seq b (inc_level g)) as [cb g1]. exact IHb.
  - intros b IHb c g H. autorewrite with okdb in H. autorewrite with gendb. specialize (IHb (inc_level g) H).
    destruct (gen_seq b (inc_level g)) as [cb g1]. exact IHb.
  - intros b IHb g H. autorewrite with gendb. destruct (gen_seq b _) as [cb g1]. reflexivity.
  - intros g H. discriminate.
  - intros s IHs r IHr g H. autorewrite with okdb in H. apply and_true in H. destruct H as (H1 & H2). autorewrite with gendb.
    specialize (IHs g H1). destruct (gen s g) as [cs g1]. specialize (IHr g1 H2). destruct (gen_seq r g1) as [cr g2]. cbn in *. congruence.
  - intros t b IHb r IHr g H. autorewrite with okdb in H. apply and_true in H. destruct H as (H1 & H2). autorewrite with gendb.
    specialize (IHb g H1). destruct (gen_seq b g) as [cs g1]. specialize (IHr g1 H2). destruct (gen_arms r g1) as [cr g2]. cbn in *. congruence.
  - intros l b IHb r IHr g H. autorewrite with okdb in H. apply and_true in H. destruct H as (H1 & H2). autorewrite with gendb.
    specialize (IHb g H1). destruct (gen_seq b g) as [cs g1]. specialize (IHr g1 H2). destruct (gen_cases r g1) as [cr g2]. cbn in *. congruence.
Qed.

Lemma breaks_in :
  (forall s d i g, ok_stat St d s = true -> (d = true -> i = true) -> forallb (breaks i) (fst (gen s g)) = true) /\
  (forall l d i g, ok_stats St d l = true -> (d = true -> i = true) -> forallb (breaks i) (fst (gen_seq l g)) = true) /\
  (forall a d i g e, ok_arms St d a = true -> (d = true -> i = true) -> forallb (breaks i) e = true ->
     forallb (breaks i) (fst (gen_arms a g) e) = true) /\
  (forall c d g, ok_cases St d c = true -> forallb (breaks true) (fst (gen_cases c g)) = true).
Proof.
  apply flow_ind; try (intros; autorewrite with gendb; reflexivity).
  - intros a IHa e IHe d i g H D. autorewrite with okdb in H. apply and_true in H. destruct H as (H1 & H2). autorewrite with gendb.
    specialize (fun e => IHa d i g e H1 D). destruct (gen_arms a g) as [cs g1]. specialize (IHe d i g1 H2 D). destruct (gen_seq e g1) as [ce g2]. cbn in *. auto.
  - intros x c IHc els e IHe d i g H D. autorewrite with okdb in H. apply and_true in H. destruct H as (H1 & H2). autorewrite with gendb.
    specialize (IHc d (inc_level g) H1). destruct (gen_cases c (inc_level g)) as [cs g1]. specialize (IHe d true g1 H2 (fun _ => eq_refl)).
    destruct els; [destruct (gen_seq e g1) as [ce g2]|]; cbn in *; rewrite forallb_app, IHc; cbn; [|reflexivity].
    rewrite forallb_app, IHe. reflexivity.
  - intros a IHa els e IHe d i g H D. autorewrite with okdb in H. apply and_true in H. destruct H as (H1 & H2). autorewrite with gendb.
    specialize (fun e => IHa d i g e H1 D). destruct (gen_arms a g) as [cs g1]. specialize (IHe d i g1 H2 D).
    destruct els; [destruct (gen_seq e g1) as [ce g2]|]; cbn in *; auto.
  - intros c b IHb d i g H D. autorewrite with okdb in H. autorewrite with gendb. specialize (IHb d true (inc_level g) H (fun _ => eq_refl)).
    destruct (gen_seq b (inc_level g)) as [cb g1]. cbn in *. now rewrite IHb.
  - intros b IHb c d i g H D. autorewrite with okdb in H. autorewrite with gendb. specialize (IHb d true (inc_level g) H (fun _ => eq_refl)).
    destruct (gen_seq b (inc_level g)) as [cb g1]. cbn in *. now rewrite IHb.
  - intros b IHb d i g H D. autorewrite with okdb in H. autorewrite with gendb.
    specialize (IHb true true (mkG 0 (-1) (g_count g)) H (fun _ => eq_refl)).
    destruct (gen_seq b _) as [cb g1]. cbn in *. rewrite IHb. destruct (g_label g1 =? -1); reflexivity.
  - intros d i g H D. autorewrite with okdb in H. autorewrite with gendb. destruct (g_level g =? 0); [|reflexivity]. cbn. rewrite D by exact H. reflexivity.
  - intros t k d i g H D. autorewrite with gendb. destruct asserts; reflexivity.
  - intros s IHs r IHr d i g H D. autorewrite with okdb in H. apply and_true in H. destruct H as (H1 & H2). autorewrite with gendb.
    specialize (IHs d i g H1 D). destruct (gen s g) as [cs g1]. specialize (IHr d i g1 H2 D). destruct (gen_seq r g1) as [cr g2]. cbn in *.
    now rewrite forallb_app, IHs, IHr.
  - intros d i g e _ _ E. autorewrite with gendb. exact E.
  - intros t b IHb r IHr d i g e H D E. autorewrite with okdb in H. apply and_true in H. destruct H as (H1 & H2). autorewrite with gendb.
    specialize (IHb d i g H1 D). destruct (gen_seq b g) as [cs g1]. specialize (IHr d i g1 e H2 D E). destruct (gen_arms r g1) as [cr g2]. cbn in *.
    now rewrite IHb, IHr.
  - intros l b IHb r IHr d g H. autorewrite with okdb in H. apply and_true in H. destruct H as (H1 & H2). autorewrite with gendb.
    specialize (IHb d true g H1 (fun _ => eq_refl)). destruct (gen_seq b g) as [cs g1]. specialize (IHr d g1 H2). destruct (gen_cases r g1) as [cr g2]. cbn in *.
    rewrite !forallb_app, breaks_ranges, IHb. cbn. exact IHr.
Qed.

Definition stays (r : res (St * out)) : Prop := match r with Ok (_, Exit) => False | _ => True end.

Lemma stays_bind : forall A (x : res (St * A)) f, (forall st a, stays (f (st, a))) -> stays (bind x f).
Proof. intros A [[st a]|c| |] f H; cbn; auto. Qed.

Lemma no_exit :
  (forall s st, ok_stat St false s = true -> stays (exec St asserts n s st)) /\
  (forall l st, ok_stats St false l = true -> stays (execs St asserts n l st)) /\
  (forall a e st, ok_arms St false a = true -> (forall st, stays (e st)) -> stays (exec_arms St asserts n a e st)) /\
  (forall c v e st, ok_cases St false c = true -> (forall st, stays (e st)) -> stays (exec_cases St asserts n v c e st)).
Proof.
  apply flow_ind.
  - intros f st _. autorewrite with execdb. destruct (f st); exact I.
  - intros a IHa e IHe st H. autorewrite with okdb in H. apply and_true in H. destruct H as (H1 & H2). autorewrite with execdb. auto.
  - intros x c IHc els e IHe st H. autorewrite with okdb in H. apply and_true in H. destruct H as (H1 & H2). autorewrite with execdb.
    apply stays_bind. intros st1 v. apply IHc; [assumption|]. intros st2. destruct els; [auto | exact I].
  - intros a IHa els e IHe st H. autorewrite with okdb in H. apply and_true in H. destruct H as (H1 & H2). autorewrite with execdb.
    apply IHa; [assumption|]. intros st2. destruct els; [auto | exact I].
  - intros t b IHb st H. autorewrite with okdb in H. autorewrite with execdb. generalize n at 1. intros k. revert st.
    induction k as [|k IH]; intros st; cbn [while]; [exact I|]. apply stays_bind. intros st1 v. destruct v; [|exact I].
    specialize (IHb st1 H). destruct (execs St asserts n b st1) as [[st2 o]|z| |]; cbn; try exact I. destruct o; cbn in *; auto.
  - intros b IHb t st H. autorewrite with okdb in H. autorewrite with execdb. generalize n at 1. intros k. revert st.
    induction k as [|k IH]; intros st; cbn [repeat_]; [exact I|].
    specialize (IHb st H). destruct (execs St asserts n b st) as [[st2 o]|z| |]; cbn [bind]; try exact I. destruct o; cbn in IHb; try contradiction; [|exact I].
    apply stays_bind. intros st1 v. destruct v; [exact I | apply IH].
  - intros b IHb st _. autorewrite with execdb. generalize n at 1. intros k. revert st.
    induction k as [|k IH]; intros st; cbn [loop]; [exact I|]. apply stays_bind. intros st1 o. destruct o; [apply IH | exact I..].
  - intros st H. discriminate.
  - intros v st _. autorewrite with execdb. destruct v as [v|]; [|exact I]. apply stays_bind. intros. exact I.
  - intros k st _. exact I.
  - intros t k st _. autorewrite with execdb. destruct asserts; [|exact I]. apply stays_bind. intros st1 v. destruct v; exact I.
  - intros st _. exact I.
  - intros s IHs r IHr st H. autorewrite with okdb in H. apply and_true in H. destruct H as (H1 & H2). autorewrite with execdb.
    specialize (IHs st H1). destruct (exec St asserts n s st) as [[st2 o]|z| |]; cbn [bind]; try exact I. destruct o; cbn in *; auto.
  - intros e st _ E. autorewrite with execdb. apply E.
  - intros t b IHb r IHr e st H E. autorewrite with okdb in H. apply and_true in H. destruct H as (H1 & H2). autorewrite with execdb.
    apply stays_bind. intros st1 v. destruct v; auto.
  - intros v e st _ E. autorewrite with execdb. apply E.
  - intros l b IHb r IHr v e st H E. autorewrite with okdb in H. apply and_true in H. destruct H as (H1 & H2). autorewrite with execdb.
    destruct (in_ranges v l); auto.
Qed.

(** A body that has a RETURN among its statements does not come to its end. *)
Lemma implicit_ok : forall l st st1, execs St asserts n l st = Ok (st1, Norm) -> implicit_return St l = true.
Proof.
  induction l as [|s r IH]; intros st st1 H; [reflexivity|]. autorewrite with execdb in H. cbn [implicit_return].
  destruct (exec St asserts n s st) as [[st2 o]|z| |] eqn:E; cbn [bind] in H; try discriminate.
  destruct o; try discriminate. destruct s; eauto. autorewrite with execdb in E.
  destruct v as [v|]; [|discriminate]. destruct (v st) as [[? ?]|?| |]; discriminate.
Qed.
End Flow.
