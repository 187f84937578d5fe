(* C50 (C expressions are read as they are meant) and C60 (elements of open
   arrays). *)
From Coq Require Import ZArith List Bool String Lia.
From Verif Require Import CExprModel CExprSpec CExprProofs CExprSep.
Import ListNotations.
Open Scope Z_scope.

(* A text is read in at most one way. *)
Theorem C50_unique : forall ts t t', reads ts t -> reads ts t' -> t = t'.
Proof. intros ts t t' H H'. pose proof (P_fun _ _ _ _ H H'). congruence. Qed.

Lemma reads_Ex : forall b t, Ex 0 b t -> reads b t.
Proof.
  intros b t H.
  assert (X : P (GExpr 0) (strip b ++ []) ([t], [])).
  { apply H; [lia|exact I|exact I|]. exists 1%nat. reflexivity. }
  rewrite app_nil_r in X. exact X.
Qed.

(* The text written for an expression is read by C as the tree of operations
   the compiler means, whatever the options. *)
Theorem C50_reads : forall o n, built o n = true -> reads (expr o n MinPrec) (ctree o n).
Proof.
  intros o n B. apply reads_Ex. apply use_min; [|exact B]. apply (proj1 (all_good o) n).
Qed.

(* The tokens of that text do not run into each other. *)
Theorem C50_separate : forall o n prec, built o n = true -> separate (expr o n prec) = true.
Proof.
  intros o n prec B. destruct (proj1 (all_sep o) n) as [H _]. apply (s_use o n prec H B).
Qed.

(* written as the condition of an if, while or switch: in parentheses *)
Lemma max_prec : forall o n, is_guard n = false ->
  expr o n MaxPrec = TLp :: expr o n MinPrec ++ [TRp].
Proof.
  intros o n G. unfold expr.
  destruct n; try discriminate G; cbn [emit];
    unfold designPrec, MaxPrec; cbn [Precedence negb andb]; unfold paren at 1.
  all: try reflexivity.
  - destruct w; reflexivity.
  - destruct arr; reflexivity.
  - destruct p; reflexivity.
  - destruct b; reflexivity.
Qed.
Lemma max_prec_guard : forall o n, is_guard n = true ->
  expr o n MaxPrec = TLp :: (TLp :: expr o n MinPrec ++ [TRp]) ++ [TRp].
Proof.
  intros o n G. unfold expr.
  destruct n; try discriminate G; cbn [emit]; unfold designPrec, MaxPrec; cbn [Precedence negb andb].
  all: destruct (typchk o); reflexivity.
Qed.

Theorem C50_condition : forall o n, built o n = true ->
  exists b, expr o n MaxPrec = TLp :: b ++ [TRp] /\ reads b (ctree o n) /\ separate b = true.
Proof.
  intros o n B. destruct (is_guard n) eqn:G.
  - exists (TLp :: expr o n MinPrec ++ [TRp]). split; [apply max_prec_guard, G|]. split.
    + apply reads_Ex, Un_Ex, Post_Un, Post_paren. apply use_min; [|exact B]. apply (proj1 (all_good o) n).
    + apply (sx_paren_t (expr o n MinPrec)). destruct (proj1 (all_sep o) n) as [H _]. apply (s_use o n MinPrec H B).
  - exists (expr o n MinPrec). split; [apply max_prec, G|]. split; [apply C50_reads, B|apply C50_separate, B].
Qed.

(* ---- integer constants ---- *)

(* the value of a tree of literals, minus signs and differences, if every value
   on the way is one of a 64-bit C integer; a literal is never negative *)
Fixpoint value (t : cexp) : option Z :=
  let fits z := if (- 2 ^ 63 <=? z) && (z <? 2 ^ 63) then Some z else None in
  match t with
  | CLit (Lint z) => if 0 <=? z then fits z else None
  | CUn Pminus a => match value a with Some x => fits (- x) | None => None end
  | CBin Pminus a b =>
      match value a, value b with Some x, Some y => fits (x - y) | _, _ => None end
  | _ => None
  end.

Theorem C50_integer : forall o z, - 2 ^ 63 <= z < 2 ^ 63 ->
  exists t, reads (expr o (Const (Kint z)) MinPrec) t /\ value t = Some z.
Proof.
  intros o z R. exists (int_tree z). split; [apply (C50_reads o (Const (Kint z)) eq_refl)|].
  assert (F : forall x, - 2 ^ 63 <= x < 2 ^ 63 -> (- 2 ^ 63 <=? x) && (x <? 2 ^ 63) = true).
  { intros x X. rewrite andb_true_iff, Z.leb_le, Z.ltb_lt. lia. }
  unfold int_tree. destruct (is_min z) eqn:M.
  - unfold is_min in M. rewrite !orb_true_iff, !Z.eqb_eq in M.
    destruct M as [[-> | ->] | ->]; reflexivity.
  - unfold is_min in M. rewrite !orb_false_iff, !Z.eqb_neq in M.
    destruct (Z.ltb_spec z 0); cbn [value].
    + destruct (Z.leb_spec 0 (- z)); [|lia]. rewrite F by lia. rewrite F by lia. f_equal. lia.
    + destruct (Z.leb_spec 0 z); [|lia]. rewrite F by lia. reflexivity.
Qed.

(* ---- the hypothesis [built] is met, and matters ---- *)

(* -(a - b[i].x^) * (c + 1) < f(VAR a, -5) & ~(s - t # {}) *)
Definition sample : node :=
  Bin Band
    (Rel Plt RPlain
       (Bin Btimes
          (Minus false (Bin Bminus (Var (Outer "P") false "a")
             (Deref false (Field (Index (Var Here false "b") (Var Here false "i") 10) "x"))))
          (Bin Bplus (VarPar Here false "c") (Const (Kint 1))))
       (CallVar (Field (Deref false (Var Here false "m")) "f")
          (ACons (PRef false) (Var Here false "a") (ACons PValue (Const (Kint (-5))) ANone))))
    (Not (Rel Pne RPlain (Bin Sminus (Var Here false "s") (Var Here false "t")) (Const (Kother "0x0")))).
Example sample_built : built {| inxchk := true; ranchk := true; typchk := true |} sample = true.
Proof. reflexivity. Qed.
Example sample_reads :
  exists f, parse f (GExpr 0) (strip (expr {| inxchk := true; ranchk := true; typchk := true |} sample MinPrec))
    = Some ([ctree {| inxchk := true; ranchk := true; typchk := true |} sample], []).
Proof. exists 60%nat. reflexivity. Qed.

(* a constant under a minus sign would be written as a decrement; the front end
   folds it *)
Example minus_minus : separate (expr {| inxchk := true; ranchk := true; typchk := true |}
  (Minus false (Const (Kint (-5)))) MinPrec) = false.
Proof. reflexivity. Qed.

(* ---- C60: the element of an open array ---- *)

(* A valuation of C trees that gives sums and products their meaning. *)
Definition arithmetic (v : cexp -> Z) : Prop :=
  (forall a b, v (CBin Pplus a b) = v a + v b) /\ (forall a b, v (CBin Pstar a b) = v a * v b).

(* The index expressions and lengths as the tree has them, last dimension
   first. *)
Section Elements.
Variable o : opts.
Variable tlen : lenspec -> cexp.
Fixpoint dims (ix : ixs) : list (cexp * cexp) :=
  match ix with
  | ILast i ls => [(checked i (plain_index o false i) (ctree o i) (tlen ls), tlen ls)]
  | ICons i ls r => (checked i (plain_index o false i) (ctree o i) (tlen ls), tlen ls) :: dims r
  end.
End Elements.

(* Row-major order, last dimension first: the last index counts single
   elements, the one before it counts rows, and so on. *)
Fixpoint offset (l : list (Z * Z)) : Z :=
  match l with
  | [] => 0
  | (i, n) :: r => i + n * offset r
  end.
Fixpoint size (l : list (Z * Z)) : Z :=
  match l with [] => 1 | (_, n) :: r => n * size r end.

Definition vals (v : cexp -> Z) (l : list (cexp * cexp)) : list (Z * Z) := map (fun p => (v (fst p), v (snd p))) l.

Lemma ix_value : forall o tlen v ix, arithmetic v ->
  v (ix_tree o tlen ix) = offset (vals v (dims o tlen ix)).
Proof.
  intros o tlen v ix [Vp Vs]. induction ix; cbn [ix_tree dims vals map offset fst snd].
  - rewrite Z.mul_0_r, Z.add_0_r. reflexivity.
  - rewrite Vp, Vs. unfold vals in IHix. rewrite IHix. reflexivity.
Qed.

(* The subscript written for a[i]...[k], all dimensions indexed, is the
   row-major position of the element. *)
Theorem C60_element : forall o d ix v, built o (Open d ix []) = true -> arithmetic v ->
  exists e, reads (expr o (Open d ix []) MinPrec) (CIdx (ctree o d) e) /\
            v e = offset (vals v (dims o (lenc o d) ix)).
Proof.
  intros o d ix v B A. exists (ix_tree o (lenc o d) ix). split.
  - exact (C50_reads o _ B).
  - apply ix_value, A.
Qed.

Lemma size_pos : forall l, (forall i n, In (i, n) l -> 0 <= i < n) -> 0 < size l.
Proof.
  induction l as [|[i n] l IH]; intros H; cbn [size]; [lia|].
  specialize (H i n (or_introl eq_refl)) as H0. specialize (IH (fun i n X => H i n (or_intror X))). nia.
Qed.
Lemma offset_range : forall l, (forall i n, In (i, n) l -> 0 <= i < n) -> 0 <= offset l < size l.
Proof.
  induction l as [|[i n] l IH]; intros H; cbn [size offset]; [lia|].
  specialize (H i n (or_introl eq_refl)) as H0. specialize (IH (fun i n X => H i n (or_intror X))). nia.
Qed.

(* With every index in range the position is inside the array. *)
Theorem C60_inside : forall l, (forall i n, In (i, n) l -> 0 <= i < n) -> 0 <= offset l < size l.
Proof. exact offset_range. Qed.

(* Different elements have different positions. *)
Theorem C60_distinct : forall l l', map snd l = map snd l' ->
  (forall i n, In (i, n) l -> 0 <= i < n) -> (forall i n, In (i, n) l' -> 0 <= i < n) ->
  offset l = offset l' -> l = l'.
Proof.
  induction l as [|[i n] l IH]; intros [|[j m] l'] E H H' O; try discriminate E; [reflexivity|].
  cbn [map snd] in E. injection E as -> E.
  pose proof (H i m (or_introl eq_refl)) as H0. pose proof (H' j m (or_introl eq_refl)) as H0'.
  cbn [offset] in O.
  assert (offset l = offset l').
  { pose proof (Z.div_unique (i + m * offset l) m (offset l) i ltac:(lia) ltac:(lia)) as D1.
    pose proof (Z.div_unique (i + m * offset l) m (offset l') j ltac:(lia) ltac:(lia)) as D2. congruence. }
  assert (i = j) by nia. subst j. f_equal.
  apply IH; [exact E|intros; apply H; right; assumption|intros; apply H'; right; assumption|assumption].
Qed.

Definition prod (v : cexp -> Z) (l : list cexp) : Z := fold_left (fun a x => a * v x) l 1.

(* A row a[i].. with dimensions left over is written as the address of its
   first element: the position of the row among rows times the size of one. *)
Theorem C60_row : forall o d ix r0 row v, built o (Open d ix (r0 :: row)) = true -> arithmetic v ->
  exists e, reads (expr o (Open d ix (r0 :: row)) MinPrec) (CUn Pamp (CIdx (ctree o d) e)) /\
            v e = offset (vals v (dims o (lenc o d) ix)) * prod v (map (lenc o d) (r0 :: row)).
Proof.
  intros o d ix r0 row v B A.
  exists (fold_left (fun a ls => CBin Pstar a (lenc o d ls)) (r0 :: row) (ix_tree o (lenc o d) ix)).
  split; [exact (C50_reads o _ B)|].
  rewrite <- (ix_value o (lenc o d) v ix A). destruct A as [_ Vs].
  generalize (r0 :: row) as l. intros l. unfold prod.
  assert (X : forall l t k, fold_left (fun a x => a * v x) (map (lenc o d) l) (v t * k) =
     v t * fold_left (fun a x => a * v x) (map (lenc o d) l) k).
  { clear. induction l as [|x l IH]; intros t k; cbn [map fold_left]; [reflexivity|].
    rewrite <- Z.mul_assoc. apply IH. }
  assert (Y : forall l t, v (fold_left (fun a ls => CBin Pstar a (lenc o d ls)) l t) =
     fold_left (fun a x => a * v x) (map (lenc o d) l) (v t)).
  { clear - Vs. induction l as [|x l IH]; intros t; cbn [map fold_left]; [reflexivity|].
    rewrite IH, Vs. reflexivity. }
  rewrite Y, <- X, Z.mul_1_r. reflexivity.
Qed.

(* the row starts where its first element is: an index 0 in every dimension
   left over *)
Theorem C60_row_start : forall l ns, offset (map (fun n => (0, n)) ns ++ l) = fold_right Z.mul 1 ns * offset l.
Proof.
  induction ns as [|n ns IH]; cbn [map app offset fold_right]; [lia|]. rewrite IH. lia.
Qed.

(* a[i, j] and a[i] of a 3-dimensional open array p^ *)
Example cube_built : built {| inxchk := true; ranchk := true; typchk := true |}
  (Open (Deref true (Var Here false "p")) (ICons (Var Here false "k") (LDyn 2)
     (ICons (Bin Bplus (Var Here false "j") (Const (Kint 1))) (LDyn 1) (ILast (Var Here false "i") (LDyn 0)))) []) = true /\
  built {| inxchk := false; ranchk := true; typchk := true |}
  (Open (VarPar Here true "a") (ICons (Var Here false "j") (LDyn 1) (ILast (Var Here false "i") (LDyn 0))) [LDyn 2]) = true.
Proof. split; reflexivity. Qed.
Example offset_example : offset [(4, 5); (2, 3); (1, 2)] = 29 /\ size [(4, 5); (2, 3); (1, 2)] = 30.
Proof. split; reflexivity. Qed.

Print Assumptions C50_unique.
Print Assumptions C50_reads.
Print Assumptions C50_separate.
Print Assumptions C50_condition.
Print Assumptions C50_integer.
Print Assumptions C60_element.
Print Assumptions C60_inside.
Print Assumptions C60_distinct.
Print Assumptions C60_row.
Print Assumptions C60_row_start.
