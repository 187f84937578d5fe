(** * The parser accepts the grammar, and builds its trees *)
From Verif Require Import Base SynSpec SynModel SynProofs.
Local Open Scope Z_scope.

Section Complete.
Variable ismod : Z -> bool.
Variables isvar isstd istproc : node -> bool.
Notation G := (G ismod isvar isstd istproc).
Notation qualident := (qualident ismod).
Notation run := (run ismod isvar isstd istproc).
Notation statement := (statement ismod isstd run).
Notation is_tfield := (is_tfield istproc).

(** ** First symbols *)
Definition first (P : Z -> Prop) (ts : list tok) : Prop := exists t r, ts = t :: r /\ P (fst t).
Definition fst_fac (x : Z) : Prop := x = 30 \/ x = 32 \/ x = 33 \/ 35 <= x <= 38.
Definition fst_exp (x : Z) : Prop := x = 6 \/ x = 7 \/ fst_fac x.

Lemma first_app : forall P a b, first P a -> first P (a ++ b).
Proof. intros P a b (t & r & -> & H). exists t, (r ++ b). auto. Qed.
Lemma first_mono : forall (P Q : Z -> Prop) a, (forall x, P x -> Q x) -> first P a -> first Q a.
Proof. intros P Q a K (t & r & E & H). exists t, r. auto. Qed.
Lemma first_cons : forall (P : Z -> Prop) t r, P (fst t) -> first P (t :: r).
Proof. intros P t r H. exists t, r. auto. Qed.
Lemma sym_first : forall P ts rest es, first P ts -> P (sym (ts ++ rest, es)).
Proof. intros P ts rest es (t & r & -> & H). exact H. Qed.

Lemma firsts : forall n ts x, G n ts x ->
  match n with
  | Expr | Simple | Elements | Element | Index _ | Args | Labels => first fst_exp ts
  | Term | Factor => first fst_fac ts
  | Qual | Desig => first (fun x => x = 38) ts
  | Elsifs _ => ts = [] \/ first (fun x => x = 43) ts
  | Else _ => ts = [] \/ first (fun x => x = 42) ts
  | By => ts = [] \/ first (fun x => x = 29) ts
  | _ => True
  end.
Proof.
  induction 1; auto using first_app;
  try (right; apply first_cons; reflexivity);
  try (destruct IHG1 as [->|K]; right; [apply first_cons; reflexivity | apply first_app; exact K]);
  try (apply first_cons; cbn; unfold fst_exp, fst_fac; lia);
  try (eapply first_mono; [|eassumption]; unfold fst_exp, fst_fac; intros; cbn in *; lia);
  try (apply first_app; eapply first_mono; [|eassumption]; unfold fst_exp, fst_fac; intros; cbn in *; lia).
Qed.

(** ** What may follow *)
Definition fFac (x : Z) : Prop := x <> 17 /\ x <> 18 /\ x <> 30 /\ x <> 31.
Definition fTerm (x : Z) : Prop := fFac x /\ ~ (1 <= x <= 5).
Definition fExp (x : Z) : Prop := fFac x /\ ~ (1 <= x <= 16).
Definition fStat (x : Z) : Prop := 39 <= x /\ ~ (45 <= x <= 53).
Definition fSeq (x : Z) : Prop := 40 <= x /\ ~ (45 <= x <= 53).

(** ** Ends of loops *)
Definition elements_tail (x : node) (s : st) : res (node * st) := run (MElementsL x) s.
Definition idx_tail (x : node) (s : st) : res (node * st) := if sym s =? 19 then run (MIdx x) (get s) else Ok (x, s).
Definition args_tail (l : list node) (s : st) : res (node * st) :=
  match more s with Some s2 => run (MArgsL l) s2 | None => Ok (NSeq l, s) end.
Definition stat_tail (d : Z) (l : list node) (s : st) : res (node * st) :=
  if sym s =? 39 then run (MStat d l) (get s)
  else if (sym s <=? 38) || ((45 <=? sym s) && (sym s <=? 53)) then run (MStat d l) (err 39 s)
  else Ok (NSeq l, s).
Definition cases_tail (d : Z) (l : list node) (s : st) : res (node * st) :=
  if sym s =? 40 then run (MCasesL d l) (get s) else Ok (NSeq l, s).
Definition labels_tail (l : list node) (s : st) : res (node * st) :=
  if sym s =? 19 then run (MLabelsL l) (get s)
  else if (sym s =? 35) || (sym s =? 38) then run (MLabelsL l) (err 19 s) else Ok (NSeq l, s).
Definition withs_tail (d : Z) (l : list node) (s : st) : res (node * st) :=
  if sym s =? 40 then run (MWithsL d l) (get s) else Ok (NSeq l, s).

Definition C (n : nt) (ts : list tok) (x : node) : Prop :=
  match n with
  | Expr => forall r e, fExp (sym (r, e)) -> run MExpr (ts ++ r, e) = Ok (x, (r, e))
  | Simple => forall r e, fTerm (sym (r, e)) -> run MSimple (ts ++ r, e) = run (MSimpleL x) (r, e)
  | Term => forall r e, fFac (sym (r, e)) -> run MTerm (ts ++ r, e) = run (MTermL x) (r, e)
  | Factor => forall r e, fFac (sym (r, e)) -> run MFactor (ts ++ r, e) = Ok (x, (r, e))
  | Element => forall r e, fExp (sym (r, e)) -> sym (r, e) <> 21 -> run MElement (ts ++ r, e) = Ok (x, (r, e))
  | Elements => forall r e, fExp (sym (r, e)) -> sym (r, e) <> 21 ->
      (let* (y, s1) := run MElement (ts ++ r, e) in run (MElementsL y) s1) = run (MElementsL x) (r, e)
  | Qual => forall r e, qualident (ts ++ r, e) = (x, (r, e))
  | Desig => forall r e, (let (q, s1) := qualident (ts ++ r, e) in run (MSel q) s1) =
      if is_tfield x && (sym (r, e) =? 17) then run (MSel (NSuper x)) (get (r, e)) else run (MSel x) (r, e)
  | Index d => forall r e, fExp (sym (r, e)) -> run (MIdx d) (ts ++ r, e) = idx_tail x (r, e)
  | Args => exists l, x = NSeq l /\ forall r e, fExp (sym (r, e)) -> run (MArgsL []) (ts ++ r, e) = args_tail l (r, e)
  | Seq d => exists l, x = NSeq l /\ forall r e, fStat (sym (r, e)) -> run (MStat d []) (ts ++ r, e) = stat_tail d l (r, e)
  | Stat d => forall r e, fStat (sym (r, e)) -> statement d (resync 38 14 (ts ++ r, e)) = Ok (x, (r, e))
  | Arm d => forall r e, fSeq (sym (r, e)) -> run (MArm d) (ts ++ r, e) = Ok (x, (r, e))
  | Elsifs d => exists l, x = NSeq l /\ forall r e, fSeq (sym (r, e)) -> run (MElsifL d []) (ts ++ r, e) = run (MElsifL d l) (r, e)
  | Else d => forall r e, fSeq (sym (r, e)) -> sym (r, e) <> 42 -> run (MElse d) (ts ++ r, e) = Ok (x, (r, e))
  | Cases d => exists l, x = NSeq l /\ forall r e, fSeq (sym (r, e)) -> run (MCasesL d []) (ts ++ r, e) = cases_tail d l (r, e)
  | Case d => forall acc r e, fSeq (sym (r, e)) -> run (MCasesL d acc) (ts ++ r, e) = cases_tail d (snoc acc x) (r, e)
  | Labels => exists l, x = NSeq l /\ forall r e, fExp (sym (r, e)) -> sym (r, e) <> 21 -> run (MLabelsL []) (ts ++ r, e) = labels_tail l (r, e)
  | By => forall r e, fExp (sym (r, e)) -> sym (r, e) <> 29 ->
      (if sym (ts ++ r, e) =? 29 then run MExpr (get (ts ++ r, e)) else Ok (NNone, (ts ++ r, e))) = Ok (x, (r, e))
  | Withs d => exists l, x = NSeq l /\ forall r e, fSeq (sym (r, e)) -> run (MWithsL d []) (ts ++ r, e) = withs_tail d l (r, e)
  | Guarded d => forall acc r e, fSeq (sym (r, e)) -> run (MWithsL d acc) (ts ++ r, e) = withs_tail d (acc ++ [x]) (r, e)
  end.

(** ** The equations of the parser *)
Lemma run_step : forall m s, run m s = step ismod isvar isstd istproc run m s.
Proof. intros. apply run_eq. Qed.

Lemma sel_stop : forall x r e, fFac (sym (r, e)) -> run (MSel x) (r, e) = Ok (x, (r, e)).
Proof.
  intros x r e (A & B & C1 & D). rewrite run_step. cbn [step]. unfold selector.
  repeat match goal with |- context [sym (r, e) =? ?k] => replace (sym (r, e) =? k) with false by (symmetry; apply Z.eqb_neq; assumption) end.
  reflexivity.
Qed.

Lemma terml_stop : forall x r e, ~ (1 <= sym (r, e) <= 5) -> run (MTermL x) (r, e) = Ok (x, (r, e)).
Proof.
  intros x r e H. rewrite run_step. cbn [step]. unfold term_loop.
  destruct ((1 <=? sym (r, e)) && (sym (r, e) <=? 5)) eqn:E; [|reflexivity]. apply andb_true_iff in E. exfalso. lia.
Qed.
Lemma simplel_stop : forall x r e, ~ (6 <= sym (r, e) <= 8) -> run (MSimpleL x) (r, e) = Ok (x, (r, e)).
Proof.
  intros x r e H. rewrite run_step. cbn [step]. unfold simple_loop.
  destruct ((6 <=? sym (r, e)) && (sym (r, e) <=? 8)) eqn:E; [|reflexivity]. apply andb_true_iff in E. exfalso. lia.
Qed.
Lemma more_stop : forall r e, sym (r, e) <> 19 -> ~ (30 <= sym (r, e) <= 38) -> more (r, e) = None.
Proof.
  intros r e A B. unfold more. replace (sym (r, e) =? 19) with false by (symmetry; now apply Z.eqb_neq).
  destruct ((30 <=? sym (r, e)) && (sym (r, e) <=? 38)) eqn:E; [|reflexivity]. apply andb_true_iff in E. exfalso. lia.
Qed.
Lemma seq_stop : forall d l r e, fSeq (sym (r, e)) -> stat_tail d l (r, e) = Ok (NSeq l, (r, e)).
Proof.
  intros d l r e (A & B). unfold stat_tail. replace (sym (r, e) =? 39) with false by (symmetry; apply Z.eqb_neq; lia).
  destruct ((sym (r, e) <=? 38) || ((45 <=? sym (r, e)) && (sym (r, e) <=? 53))) eqn:E; [|reflexivity].
  apply orb_true_iff in E. exfalso. destruct E as [E|E]; [lia|]. apply andb_true_iff in E. lia.
Qed.
Lemma check_hit : forall n v r e, check n ((n, v) :: r, e) = (r, e).
Proof. intros. unfold check, sym. cbn [fst]. rewrite Z.eqb_refl. reflexivity. Qed.
Lemma simple_eq : forall x r e, fExp (sym (r, e)) -> run (MSimpleL x) (r, e) = Ok (x, (r, e)).
Proof. intros x r e (_ & H). apply simplel_stop. lia. Qed.

Lemma resync_id : forall n e s, n <= sym s -> resync n e s = s.
Proof. intros n e s H. unfold resync. now rewrite (proj2 (Z.ltb_ge _ _) H). Qed.
Lemma sym_cons : forall k v (r : list tok) e, sym ((k, v) :: r, e) = k.
Proof. reflexivity. Qed.
Lemma get_cons : forall (t : tok) r e, get (t :: r, e) = (r, e).
Proof. reflexivity. Qed.

Ltac fol := unfold fTerm, fExp, fStat, fSeq in *; unfold fFac, sym in *; cbn [fst app] in *; lia.
Ltac st m := rewrite run_step; cbn [step].
(** Normalise a goal about a piece of input followed by more. *)
Ltac nrm := do 6 (cbn [app]; rewrite <- ?app_assoc); cbn [app].

Lemma seq_end : forall d ts l r e, (forall r e, fStat (sym (r, e)) -> run (MStat d []) (ts ++ r, e) = stat_tail d l (r, e)) ->
  fSeq (sym (r, e)) -> run (MStat d []) (ts ++ r, e) = Ok (NSeq l, (r, e)).
Proof. intros d ts l r e H F. rewrite H by (unfold fStat, fSeq in *; lia). apply seq_stop. exact F. Qed.

Lemma labels_eq : forall acc s, run (MLabelsL acc) s = let* (y, s2) := run MElement s in labels_tail (acc ++ [y]) s2.
Proof.
  intros acc s. st m. unfold labels_loop. rewrite (run_step MElement). cbn [step]. unfold element.
  destruct (run MExpr s) as [[x s1]|c| |]; cbn [bind]; try reflexivity.
Qed.

(** A designator at the start of a factor or statement, and what follows it *)
Lemma desig_start : forall ts (x : node) r e, first (fun x => x = 38) ts -> sym (ts ++ r, e) = 38.
Proof. intros ts x r e H. apply (sym_first (fun x => x = 38)); assumption. Qed.

Lemma sel_super : forall d r e, sym (r, e) <> 17 -> (if is_tfield d && (sym (r, e) =? 17) then run (MSel (NSuper d)) (get (r, e)) else run (MSel d) (r, e)) = run (MSel d) (r, e).
Proof. intros d r e H. replace (sym (r, e) =? 17) with false by (symmetry; now apply Z.eqb_neq). now rewrite andb_false_r. Qed.

Lemma sel_call : forall d r e, isvar d = false -> sym (r, e) = 30 -> run (MSel d) (r, e) = Ok (d, (r, e)).
Proof. intros d r e V H. st m. unfold selector. rewrite H, V. reflexivity. Qed.

Lemma args_call : forall a l v w r e, first fst_exp a ->
  (forall r e, fExp (sym (r, e)) -> run (MArgsL []) (a ++ r, e) = args_tail l (r, e)) ->
  forall x, call run x ((30, v) :: a ++ (22, w) :: r, e) = Ok (NCall x l, (r, e)) /\
  std_call run x ((30, v) :: a ++ (22, w) :: r, e) = Ok (NStd x l, (r, e)).
Proof.
  intros a l v w r e FI H x. unfold call, std_call. rewrite ?get_cons.
  assert (S : sym (a ++ (22, w) :: r, e) =? 22 = false).
  { apply Z.eqb_neq. pose proof (sym_first _ _ ((22, w) :: r) e FI) as K. unfold fst_exp, fst_fac in K. lia. }
  rewrite ?sym_cons. cbn [Z.eqb Pos.eqb].
  rewrite S. rewrite H by fol. unfold args_tail. rewrite more_stop by fol. cbn [bind list_of]. rewrite check_hit. auto.
Qed.

Lemma call0 : forall x v w r e, call run x ((30, v) :: (22, w) :: r, e) = Ok (NCall x [], (r, e)) /\
  std_call run x ((30, v) :: (22, w) :: r, e) = Ok (NStd x [], (r, e)).
Proof. intros. split; reflexivity. Qed.

Lemma factor_desig : forall a d r e y, first (fun x => x = 38) a ->
  (let (q, s1) := qualident (a ++ r, e) in run (MSel q) s1) = Ok (d, (r, e)) ->
  (if isstd d then run (MStd d) (r, e) else if sym (r, e) =? 30 then call run d (r, e) else Ok (d, (r, e))) = y ->
  run MFactor (a ++ r, e) = y.
Proof.
  intros a d r e y FI H Y. pose proof (desig_start a d r e FI) as S. st m. unfold factor. rewrite resync_id by lia. cbv zeta.
  rewrite S. cbn [Z.eqb Pos.eqb]. destruct (qualident (a ++ r, e)) as [q s1]. rewrite H. cbn [bind]. exact Y.
Qed.

Lemma stat_desig : forall lv a d r e y, first (fun x => x = 38) a ->
  (let (q, s1) := qualident (a ++ r, e) in run (MSel q) s1) = Ok (d, (r, e)) ->
  sym (r, e) <> 34 -> sym (r, e) <> 9 ->
  (if isstd d then run (MStd d) (r, e) else if sym (r, e) =? 30 then call run d (r, e) else Ok (NCall d [], (r, e))) = y ->
  statement lv (resync 38 14 (a ++ r, e)) = y.
Proof.
  intros lv a d r e y FI H A B Y. pose proof (desig_start a d r e FI) as S. rewrite resync_id by lia. unfold SynModel.statement.
  rewrite S. cbn [Z.eqb Pos.eqb]. destruct (qualident (a ++ r, e)) as [q s1]. rewrite H. cbn [bind].
  replace (sym (r, e) =? 34) with false by (symmetry; now apply Z.eqb_neq).
  replace (sym (r, e) =? 9) with false by (symmetry; now apply Z.eqb_neq). exact Y.
Qed.

Lemma tail39 : forall d l v r e, stat_tail d l ((39, v) :: r, e) = run (MStat d l) (r, e).
Proof. reflexivity. Qed.

Lemma complete : forall n ts x, G n ts x -> C n ts x.
Proof.
  induction 1; cbn [C] in *.
  - (* x_simple *) intros r e F. st m. unfold expression. rewrite IHG by fol. rewrite simple_eq by exact F. cbn [bind].
    destruct ((9 <=? sym (r, e)) && (sym (r, e) <=? 14)) eqn:E; [apply andb_true_iff in E; exfalso; fol|].
    replace (sym (r, e) =? 15) with false by (symmetry; apply Z.eqb_neq; fol).
    replace (sym (r, e) =? 16) with false by (symmetry; apply Z.eqb_neq; fol). reflexivity.
  - (* x_rel *) intros r e F. nrm. st m. unfold expression. rewrite IHG1 by fol. rewrite simplel_stop by fol. cbn [bind].
    rewrite ?sym_cons.
    replace (9 <=? op) with true by (symmetry; apply Z.leb_le; lia). replace (op <=? 14) with true by (symmetry; apply Z.leb_le; lia).
    rewrite ?get_cons; cbn [andb]. rewrite IHG2 by fol. rewrite simple_eq by exact F. reflexivity.
  - intros r e F. nrm. st m. unfold expression. rewrite IHG1 by fol. rewrite simplel_stop by fol. cbn [bind].
    rewrite ?sym_cons. rewrite ?get_cons; cbn [andb Z.leb Z.eqb Z.compare Pos.compare Pos.compare_cont Pos.eqb].
    rewrite IHG2 by fol. rewrite simple_eq by exact F. reflexivity.
  - intros r e F. nrm. st m. unfold expression. rewrite IHG1 by fol. rewrite simplel_stop by fol. cbn [bind].
    rewrite ?sym_cons. rewrite ?get_cons; cbn [andb Z.leb Z.eqb Z.compare Pos.compare Pos.compare_cont Pos.eqb].
    rewrite (desig_start b t) by (apply (firsts _ _ _ H0)). cbn [Z.eqb Pos.eqb]. rewrite IHG2. reflexivity.
  - (* s_term *) intros r e F. st m. unfold simple. pose proof (sym_first _ _ r e (firsts _ _ _ H)) as S. unfold fst_fac in S.
    replace (sym (a ++ r, e) =? 7) with false by (symmetry; apply Z.eqb_neq; lia).
    replace (sym (a ++ r, e) =? 6) with false by (symmetry; apply Z.eqb_neq; lia).
    rewrite IHG by fol. rewrite terml_stop by fol. reflexivity.
  - intros r e F. st m. unfold simple. cbn [app]. rewrite ?sym_cons.
    rewrite ?get_cons; cbn [Z.eqb Pos.eqb]. rewrite IHG by fol. rewrite terml_stop by fol. reflexivity.
  - intros r e F. st m. unfold simple. cbn [app]. rewrite ?sym_cons.
    rewrite ?get_cons; cbn [Z.eqb Pos.eqb]. rewrite IHG by fol. rewrite terml_stop by fol. reflexivity.
  - intros r e F. nrm. rewrite IHG1 by fol. st m. unfold simple_loop. rewrite ?sym_cons.
    replace (6 <=? op) with true by (symmetry; apply Z.leb_le; lia). replace (op <=? 8) with true by (symmetry; apply Z.leb_le; lia).
    rewrite ?get_cons; cbn [andb]. rewrite IHG2 by fol. rewrite terml_stop by fol. reflexivity.
  - (* t_factor *) intros r e F. st m. unfold term. rewrite IHG by fol. reflexivity.
  - intros r e F. nrm. rewrite IHG1 by fol. st m. unfold term_loop. rewrite ?sym_cons.
    replace (1 <=? op) with true by (symmetry; apply Z.leb_le; lia). replace (op <=? 5) with true by (symmetry; apply Z.leb_le; lia).
    rewrite ?get_cons; cbn [andb]. rewrite IHG2 by fol. reflexivity.
  - (* factors *) intros r e F. st m. reflexivity.
  - intros r e F. st m. reflexivity.
  - intros r e F. st m. reflexivity.
  - intros r e F. nrm. st m. unfold factor. rewrite resync_id by (unfold sym; cbn; lia). cbv zeta.
    rewrite ?sym_cons. rewrite ?get_cons; cbn [Z.eqb Pos.eqb].
    rewrite IHG by fol. cbn [bind]. rewrite check_hit. reflexivity.
  - intros r e F. st m. reflexivity.
  - intros r e F. nrm. st m. unfold factor. rewrite resync_id by (unfold sym; cbn; lia). cbv zeta.
    rewrite ?sym_cons. rewrite ?get_cons; cbn [Z.eqb Pos.eqb]. unfold sets.
    pose proof (sym_first _ _ ((24, w) :: r) e (firsts _ _ _ H)) as S. unfold fst_exp, fst_fac in S.
    replace (sym (a ++ (24, w) :: r, e) =? 24) with false by (symmetry; apply Z.eqb_neq; lia).
    specialize (IHG ((24, w) :: r) e ltac:(fol) ltac:(fol)).
    assert (RX : run (MElementsL x) ((24, w) :: r, e) = Ok (x, ((24, w) :: r, e))).
    { st m. unfold elements_loop. rewrite more_stop by fol. reflexivity. }
    pose proof (eq_trans IHG RX) as K. clear IHG RX. revert K. generalize (run MElement (a ++ (24, w) :: r, e)). intros [[y s1]|c| |] K; cbn [bind] in *; try discriminate.
    rewrite K. cbn [bind]. rewrite check_hit. reflexivity.
  - intros r e F. cbn [app]. st m. unfold factor. rewrite resync_id by (unfold sym; cbn; lia). cbv zeta.
    rewrite ?sym_cons. rewrite ?get_cons; cbn [Z.eqb Pos.eqb].
    rewrite IHG by fol. reflexivity.
  - (* f_des *) intros r e F. pose proof (firsts _ _ _ H) as FI. apply (factor_desig a d); [exact FI| |].
    + rewrite IHG. rewrite sel_super by fol. apply sel_stop. exact F.
    + rewrite H0. replace (sym (r, e) =? 30) with false by (symmetry; apply Z.eqb_neq; fol). reflexivity.
  - intros r e F. nrm. pose proof (firsts _ _ _ H) as FI. destruct IHG2 as (l' & E & IHG2). inversion E; subst l'.
    apply (factor_desig a d); [exact FI| |].
    + rewrite IHG1. rewrite sel_super by (unfold sym; cbn; lia). apply sel_call; [assumption | reflexivity].
    + rewrite H0. rewrite ?sym_cons. cbn [Z.eqb Pos.eqb].
      apply (args_call b l v w r e (firsts _ _ _ H2) IHG2).
  - intros r e F. nrm. pose proof (firsts _ _ _ H) as FI. apply (factor_desig a d); [exact FI| |].
    + rewrite IHG. rewrite sel_super by (unfold sym; cbn; lia). apply sel_call; [assumption | reflexivity].
    + rewrite H0. reflexivity.
  - intros r e F. nrm. pose proof (firsts _ _ _ H) as FI. destruct IHG2 as (l' & E & IHG2). inversion E; subst l'.
    apply (factor_desig a d); [exact FI| |].
    + rewrite IHG1. rewrite sel_super by (unfold sym; cbn; lia). apply sel_call; [assumption | reflexivity].
    + rewrite H0. st m. apply (args_call b l v w r e (firsts _ _ _ H2) IHG2).
  - intros r e F. nrm. pose proof (firsts _ _ _ H) as FI. apply (factor_desig a d); [exact FI| |].
    + rewrite IHG. rewrite sel_super by (unfold sym; cbn; lia). apply sel_call; [assumption | reflexivity].
    + rewrite H0. st m. reflexivity.
  - (* es_one *) intros r e F N. rewrite IHG by assumption. reflexivity.
  - intros r e F N. nrm. rewrite IHG1 by fol. st m. unfold elements_loop.
    replace (more ((19, v) :: b ++ r, e)) with (Some (b ++ r, e)) by reflexivity. rewrite IHG2 by assumption. reflexivity.
  - (* e_one *) intros r e F N. st m. unfold element. rewrite IHG by assumption. cbn [bind].
    replace (sym (r, e) =? 21) with false by (symmetry; now apply Z.eqb_neq). reflexivity.
  - intros r e F N. nrm. st m. unfold element. rewrite IHG1 by fol. cbn [bind].
    rewrite ?sym_cons. rewrite ?get_cons; cbn [Z.eqb Pos.eqb]. rewrite IHG2 by assumption. reflexivity.
  - (* q_id *) intros r e. unfold SynModel.qualident. cbn [app]. replace (val ((38, x) :: r, e)) with x by reflexivity. rewrite H. reflexivity.
  - intros r e. unfold SynModel.qualident. cbn [app]. replace (val ((38, m) :: (18, v) :: (38, x) :: r, e)) with m by reflexivity. rewrite H. reflexivity.
  - (* d_qual *) intros r e. rewrite IHG. inversion H; subst; reflexivity.
  - intros r e. nrm. rewrite IHG. rewrite sel_super by (unfold sym; cbn; lia). st m. unfold selector.
    rewrite ?sym_cons. rewrite ?get_cons; cbn [Z.eqb Pos.eqb].
    rewrite ?sym_cons. rewrite ?get_cons; cbn [Z.eqb Pos.eqb].
    replace (val ((38, x) :: r, e)) with x by reflexivity. cbn [SynSpec.is_tfield]. reflexivity.
  - intros r e. nrm. rewrite IHG. rewrite H0. reflexivity.
  - intros r e. nrm. rewrite IHG. rewrite H0. cbn [andb]. st m. reflexivity.
  - (* d_index *) intros r e. nrm. rewrite IHG1. rewrite sel_super by (unfold sym; cbn; lia). st m. unfold selector.
    rewrite ?sym_cons. rewrite ?get_cons; cbn [Z.eqb Pos.eqb].
    rewrite IHG2 by fol. unfold idx_tail. rewrite ?sym_cons. cbn [Z.eqb Pos.eqb bind].
    rewrite check_hit. inversion H0; subst; reflexivity.
  - (* d_guard *) intros r e. nrm. rewrite IHG1. rewrite sel_super by (unfold sym; cbn; lia). st m. unfold selector.
    rewrite ?sym_cons. rewrite ?get_cons; cbn [Z.eqb Pos.eqb].
    rewrite H0. cbn [andb]. rewrite (desig_start b t) by (apply (firsts _ _ _ H1)). cbn [Z.eqb Pos.eqb]. rewrite IHG2. rewrite check_hit. reflexivity.
  - (* i_one *) intros r e F. st m. unfold index_loop. rewrite IHG by assumption. reflexivity.
  - intros r e F. nrm. rewrite IHG1 by fol. unfold idx_tail at 1. rewrite ?sym_cons.
    rewrite ?get_cons; cbn [Z.eqb Pos.eqb]. st m. unfold index_loop. rewrite IHG2 by assumption. reflexivity.
  - (* a_one *) exists [x]. split; [reflexivity|]. intros r e F. st m. unfold args_loop. rewrite IHG by assumption. reflexivity.
  - destruct IHG1 as (l' & E & IHG1). inversion E; subst l'. exists (l ++ [y]). split; [reflexivity|]. intros r e F. nrm.
    rewrite IHG1 by fol. unfold args_tail at 1. replace (more ((19, v) :: b ++ r, e)) with (Some (b ++ r, e)) by reflexivity.
    st m. unfold args_loop. rewrite IHG2 by assumption. reflexivity.
  - (* q_one *) eexists. split; [reflexivity|]. intros r e F. st m. unfold stat_loop. rewrite IHG by assumption. reflexivity.
  - destruct IHG1 as (l' & E & IHG1). inversion E; subst l'. eexists. split; [reflexivity|]. intros r e F. nrm.
    rewrite IHG1 by fol. rewrite tail39. st m. unfold stat_loop. rewrite IHG2 by assumption. reflexivity.
  - (* st_empty *) intros r e F. cbn [app]. rewrite resync_id by fol. unfold SynModel.statement.
    repeat match goal with |- context [sym (r, e) =? ?k] => replace (sym (r, e) =? k) with false by (symmetry; apply Z.eqb_neq; fol) end. reflexivity.
  - (* st_assign *) intros r e' F. nrm. pose proof (firsts _ _ _ H) as FI. pose proof (desig_start a x ((34, v) :: b ++ r) e' FI) as S.
    rewrite resync_id by lia. unfold SynModel.statement. rewrite S. cbn [Z.eqb Pos.eqb].
    specialize (IHG1 ((34, v) :: b ++ r) e'). rewrite sel_super in IHG1 by (unfold sym; cbn; lia). rewrite sel_stop in IHG1 by fol.
    destruct (qualident (a ++ (34, v) :: b ++ r, e')) as [q s1]. rewrite IHG1. cbn [bind].
    rewrite ?sym_cons. rewrite ?get_cons; cbn [Z.eqb Pos.eqb]. rewrite IHG2 by fol. reflexivity.
  - intros r e F. nrm. pose proof (firsts _ _ _ H) as FI. destruct IHG2 as (l' & E & IHG2). inversion E; subst l'.
    apply (stat_desig d a x); [exact FI| | unfold sym; cbn; lia | unfold sym; cbn; lia |].
    + rewrite IHG1. rewrite sel_super by (unfold sym; cbn; lia). apply sel_call; [assumption | reflexivity].
    + rewrite H0. rewrite ?sym_cons. cbn [Z.eqb Pos.eqb].
      apply (args_call b l v w r e (firsts _ _ _ H2) IHG2).
  - intros r e F. nrm. pose proof (firsts _ _ _ H) as FI.
    apply (stat_desig d a x); [exact FI| | unfold sym; cbn; lia | unfold sym; cbn; lia |].
    + rewrite IHG. rewrite sel_super by (unfold sym; cbn; lia). apply sel_call; [assumption | reflexivity].
    + rewrite H0. reflexivity.
  - intros r e F. pose proof (firsts _ _ _ H) as FI.
    apply (stat_desig d a x); [exact FI| | fol | fol |].
    + rewrite IHG. rewrite sel_super by fol. apply sel_stop. fol.
    + rewrite H0. replace (sym (r, e) =? 30) with false by (symmetry; apply Z.eqb_neq; fol). reflexivity.
  - intros r e F. nrm. pose proof (firsts _ _ _ H) as FI. destruct IHG2 as (l' & E & IHG2). inversion E; subst l'.
    apply (stat_desig d a x); [exact FI| | unfold sym; cbn; lia | unfold sym; cbn; lia |].
    + rewrite IHG1. rewrite sel_super by (unfold sym; cbn; lia). apply sel_call; [assumption | reflexivity].
    + rewrite H0. st m. apply (args_call b l v w r e (firsts _ _ _ H2) IHG2).
  - intros r e F. nrm. pose proof (firsts _ _ _ H) as FI.
    apply (stat_desig d a x); [exact FI| | unfold sym; cbn; lia | unfold sym; cbn; lia |].
    + rewrite IHG. rewrite sel_super by (unfold sym; cbn; lia). apply sel_call; [assumption | reflexivity].
    + rewrite H0. st m. reflexivity.
  - (* st_if *) destruct IHG2 as (l' & E & IHG2). inversion E; subst l'. intros r e' F. nrm. rewrite resync_id by (unfold sym; cbn; lia).
    unfold SynModel.statement. rewrite ?sym_cons.
    rewrite ?get_cons; cbn [Z.eqb Pos.eqb].
    assert (FE : fSeq (sym (e ++ (41, w) :: r, e'))).
    { destruct (firsts _ _ _ H1) as [->|K]; [fol | pose proof (sym_first _ _ ((41, w) :: r) e' K) as Q; cbn beta in Q; fol]. }
    assert (FB : fSeq (sym (b ++ e ++ (41, w) :: r, e'))).
    { destruct (firsts _ _ _ H0) as [->|K]; [exact FE | pose proof (sym_first _ _ (e ++ (41, w) :: r) e' K) as Q; cbn beta in Q; fol]. }
    rewrite IHG1 by exact FB. cbn [bind]. rewrite IHG2 by exact FE.
    assert (FN : sym (e ++ (41, w) :: r, e') <> 43).
    { destruct (firsts _ _ _ H1) as [->|K]; [cbn; lia | pose proof (sym_first _ _ ((41, w) :: r) e' K) as Q; cbn beta in Q; lia]. }
    rewrite (run_step (MElsifL d l)). cbn [step]. unfold elsif_loop. replace (sym (e ++ (41, w) :: r, e') =? 43) with false by (symmetry; now apply Z.eqb_neq).
    cbn [bind]. rewrite IHG3 by fol. cbn [bind list_of]. rewrite check_hit. reflexivity.
  - (* st_case *) destruct IHG2 as (l' & E & IHG2). inversion E; subst l'. intros r e' F. nrm. rewrite resync_id by (unfold sym; cbn; lia).
    unfold SynModel.statement. rewrite ?sym_cons.
    rewrite ?get_cons; cbn [Z.eqb Pos.eqb].
    rewrite IHG1 by fol. cbn [bind]. rewrite check_hit.
    assert (FE : fSeq (sym (e ++ (41, u) :: r, e')) /\ sym (e ++ (41, u) :: r, e') <> 40).
    { destruct (firsts _ _ _ H1) as [->|K]; [fol | pose proof (sym_first _ _ ((41, u) :: r) e' K) as Q; cbn beta in Q; fol]. }
    destruct FE as [FE FN].
    rewrite IHG2 by exact FE. unfold cases_tail. replace (sym (e ++ (41, u) :: r, e') =? 40) with false by (symmetry; now apply Z.eqb_neq).
    cbn [bind]. rewrite IHG3 by fol. cbn [bind list_of]. rewrite check_hit. reflexivity.
  - (* st_while *) intros r e' F. nrm. rewrite resync_id by (unfold sym; cbn; lia). destruct IHG2 as (l & -> & IHG2).
    unfold SynModel.statement. rewrite ?sym_cons.
    rewrite ?get_cons; cbn [Z.eqb Pos.eqb]. rewrite IHG1 by fol. cbn [bind]. rewrite check_hit. rewrite (seq_end _ _ _ _ _ IHG2) by fol.
    cbn [bind]. rewrite check_hit. reflexivity.
  - (* st_repeat *) intros r e' F. nrm. rewrite resync_id by (unfold sym; cbn; lia). destruct IHG1 as (l & -> & IHG1).
    unfold SynModel.statement. rewrite ?sym_cons.
    rewrite ?get_cons; cbn [Z.eqb Pos.eqb]. rewrite (seq_end _ _ _ _ _ IHG1) by fol. cbn [bind].
    rewrite ?sym_cons. rewrite ?get_cons; cbn [Z.eqb Pos.eqb]. rewrite IHG2 by fol. reflexivity.
  - (* st_for *) intros r e' F. nrm. rewrite resync_id by (unfold sym; cbn; lia). destruct IHG5 as (l & -> & IHG5).
    unfold SynModel.statement.
    rewrite ?sym_cons.
    rewrite ?get_cons; cbn [Z.eqb Pos.eqb].
    rewrite (desig_start q x) by (apply (firsts _ _ _ H)). cbn [Z.eqb Pos.eqb]. rewrite IHG1. rewrite check_hit.
    rewrite IHG2 by fol. cbn [bind]. rewrite check_hit.
    assert (FB : fExp (sym (c ++ (27, v3) :: e ++ (41, u) :: r, e'))).
    { destruct (firsts _ _ _ H2) as [->|K]; [fol | pose proof (sym_first _ _ ((27, v3) :: e ++ (41, u) :: r) e' K) as Q; cbn beta in Q; fol]. }
    rewrite IHG3 by exact FB. cbn [bind]. specialize (IHG4 ((27, v3) :: e ++ (41, u) :: r) e' ltac:(fol) ltac:(fol)).
    match type of IHG4 with _ = ?R => match goal with |- bind ?m _ = _ => replace m with R by (symmetry; exact IHG4) end end. cbn [bind]. rewrite check_hit. rewrite (seq_end _ _ _ _ _ IHG5) by fol.
    cbn [bind]. rewrite check_hit. reflexivity.
  - (* st_loop *) intros r e' F. nrm. rewrite resync_id by (unfold sym; cbn; lia). destruct IHG as (l & -> & IHG).
    unfold SynModel.statement. rewrite ?sym_cons.
    rewrite ?get_cons; cbn [Z.eqb Pos.eqb]. rewrite (seq_end _ _ _ _ _ IHG) by fol. cbn [bind]. rewrite check_hit. reflexivity.
  - (* st_with *) destruct IHG1 as (l' & E & IHG1). inversion E; subst l'. intros r e' F. nrm. rewrite resync_id by (unfold sym; cbn; lia).
    unfold SynModel.statement. rewrite ?sym_cons.
    rewrite ?get_cons; cbn [Z.eqb Pos.eqb].
    assert (FE : fSeq (sym (e ++ (41, w) :: r, e')) /\ sym (e ++ (41, w) :: r, e') <> 40).
    { destruct (firsts _ _ _ H0) as [->|K]; [fol | pose proof (sym_first _ _ ((41, w) :: r) e' K) as Q; cbn beta in Q; fol]. }
    destruct FE as [FE FN].
    rewrite IHG1 by exact FE. unfold withs_tail. replace (sym (e ++ (41, w) :: r, e') =? 40) with false by (symmetry; now apply Z.eqb_neq).
    cbn [bind]. rewrite IHG2 by fol. cbn [bind list_of]. rewrite check_hit. reflexivity.
  - (* st_exit *) intros r e F. rewrite resync_id by (unfold sym; cbn; lia). unfold SynModel.statement. cbn [app].
    rewrite ?sym_cons. rewrite ?get_cons; cbn [Z.eqb Pos.eqb].
    replace (d =? 0) with false by (symmetry; now apply Z.eqb_neq). reflexivity.
  - intros r e F. rewrite resync_id by (unfold sym; cbn; lia). unfold SynModel.statement. cbn [app].
    rewrite ?sym_cons. rewrite ?get_cons; cbn [Z.eqb Pos.eqb].
    replace (sym (r, e) <? 39) with false by (symmetry; apply Z.ltb_ge; fol). reflexivity.
  - intros r e F. rewrite resync_id by (unfold sym; cbn; lia). unfold SynModel.statement. cbn [app].
    rewrite ?sym_cons. rewrite ?get_cons; cbn [Z.eqb Pos.eqb].
    pose proof (sym_first _ _ r e (firsts _ _ _ H)) as Q. unfold fst_exp, fst_fac in Q.
    replace (sym (a ++ r, e) <? 39) with true by (symmetry; apply Z.ltb_lt; lia). rewrite IHG by fol. reflexivity.
  - (* m_arm *) intros r e F. nrm. destruct IHG2 as (l & -> & IHG2). st m. unfold arm. rewrite IHG1 by fol. cbn [bind]. rewrite check_hit.
    rewrite (seq_end _ _ _ _ _ IHG2) by exact F. reflexivity.
  - exists []. split; reflexivity.
  - destruct IHG1 as (l' & E & IHG1). inversion E; subst l'. eexists. split; [reflexivity|]. intros r e F. nrm.
    rewrite IHG1 by fol. st m. unfold elsif_loop. rewrite ?sym_cons.
    rewrite ?get_cons; cbn [Z.eqb Pos.eqb]. rewrite IHG2 by exact F. reflexivity.
  - intros r e F N. st m. unfold else_part. cbn [app]. replace (sym (r, e) =? 42) with false by (symmetry; now apply Z.eqb_neq). reflexivity.
  - intros r e F N. destruct IHG as (l & -> & IHG). st m. unfold else_part. cbn [app].
    rewrite ?sym_cons. rewrite ?get_cons; cbn [Z.eqb Pos.eqb]. rewrite (seq_end _ _ _ _ _ IHG) by exact F. reflexivity.
  - (* cs_one *) eexists. split; [reflexivity|]. intros r e F. apply IHG. exact F.
  - destruct IHG1 as (l' & E & IHG1). inversion E; subst l'. eexists. split; [reflexivity|]. intros r e F. nrm.
    rewrite IHG1 by fol. unfold cases_tail at 1. rewrite ?sym_cons.
    rewrite ?get_cons; cbn [Z.eqb Pos.eqb]. apply IHG2. exact F.
  - intros acc r e F. cbn [app]. st m. unfold cases_loop. replace (sym (r, e) <? 40) with false by (symmetry; apply Z.ltb_ge; fol).
    cbn [bind]. reflexivity.
  - intros acc r e F. nrm. destruct IHG1 as (l' & E & IHG1). inversion E; subst l'. destruct IHG2 as (l2 & -> & IHG2).
    st m. unfold cases_loop. pose proof (sym_first _ _ ((20, v) :: b ++ r) e (firsts _ _ _ H)) as Q. unfold fst_exp, fst_fac in Q.
    replace (sym (a ++ (20, v) :: b ++ r, e) <? 40) with true by (symmetry; apply Z.ltb_lt; lia).
    rewrite IHG1 by fol. unfold labels_tail. rewrite ?sym_cons.
    cbn [Z.eqb Pos.eqb orb bind]. rewrite check_hit. rewrite (seq_end _ _ _ _ _ IHG2) by exact F. reflexivity.
  - (* l_one *) eexists. split; [reflexivity|]. intros r e F N. rewrite labels_eq. rewrite IHG by assumption. reflexivity.
  - destruct IHG1 as (l' & E & IHG1). inversion E; subst l'. eexists. split; [reflexivity|]. intros r e F N. nrm.
    rewrite IHG1 by fol. unfold labels_tail at 1. rewrite ?sym_cons.
    rewrite ?get_cons; cbn [Z.eqb Pos.eqb]. rewrite labels_eq. rewrite IHG2 by assumption. reflexivity.
  - intros r e F N. cbn [app]. replace (sym (r, e) =? 29) with false by (symmetry; now apply Z.eqb_neq). reflexivity.
  - intros r e F N. cbn [app]. rewrite ?sym_cons. rewrite ?get_cons; cbn [Z.eqb Pos.eqb].
    apply IHG. exact F.
  - (* w_one *) eexists. split; [reflexivity|]. intros r e F. apply (IHG []). exact F.
  - destruct IHG1 as (l' & E & IHG1). inversion E; subst l'. eexists. split; [reflexivity|]. intros r e F. nrm.
    rewrite IHG1 by fol. unfold withs_tail at 1. rewrite ?sym_cons.
    rewrite ?get_cons; cbn [Z.eqb Pos.eqb]. apply IHG2. exact F.
  - intros acc r e F. nrm. destruct IHG3 as (l2 & -> & IHG3). st m. unfold withs_loop.
    rewrite (desig_start a x) by (apply (firsts _ _ _ H)). cbn [Z.eqb Pos.eqb]. rewrite IHG1. rewrite check_hit.
    rewrite (desig_start b t) by (apply (firsts _ _ _ H0)). cbn [Z.eqb Pos.eqb]. rewrite IHG2. rewrite check_hit.
    rewrite (seq_end _ _ _ _ _ IHG3) by exact F. reflexivity.
Qed.
End Complete.
