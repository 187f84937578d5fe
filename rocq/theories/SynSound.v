(** * What the parser accepts without an error is in the grammar *)
From Verif Require Import Base SynSpec SynModel SynProofs SynComplete.
Local Open Scope Z_scope.

Section Sound.
Variable ismod : Z -> bool.
Variables isvar isstd istproc : node -> bool.
Notation G := (G ismod isvar isstd istproc).
Notation qualident := (qualident ismod).
Notation is_tfield := (is_tfield istproc).

(** ** The grammar with what remains *)
Definition R (n : nt) (ts r : list tok) (x : node) : Prop := exists a, ts = a ++ r /\ G n a x.

Ltac rr K := intros; repeat match goal with H : R _ _ _ _ |- _ => destruct H as (? & -> & ?) end;
  eexists; split; cycle 1; [eapply K; eauto | do 6 (cbn [app]; rewrite <- ?app_assoc); reflexivity].

Lemma r_x_simple : forall x t1 r, R Simple t1 r x -> R Expr t1 r x.
Proof. rr x_simple. Qed.
Lemma r_x_rel : forall x op v y t1 t2 r, R Simple t2 ((op, v) :: t1) x -> eql <= op <= geq -> R Simple t1 r y -> R Expr t2 r (NOp op x y).
Proof. rr x_rel. Qed.
Lemma r_x_in : forall x v y t1 t2 r, R Simple t2 ((in_, v) :: t1) x -> R Simple t1 r y -> R Expr t2 r (NIn x y).
Proof. rr x_in. Qed.
Lemma r_x_is : forall x v t t1 t2 r, R Simple t2 ((is_, v) :: t1) x -> R Qual t1 r t -> R Expr t2 r (NIs x t).
Proof. rr x_is. Qed.
Lemma r_s_term : forall x t1 r, R Term t1 r x -> R Simple t1 r x.
Proof. rr s_term. Qed.
Lemma r_s_neg : forall v x t1 r, R Term t1 r x -> R Simple ((minus, v) :: t1) r (NNeg x).
Proof. rr s_neg. Qed.
Lemma r_s_pos : forall v x t1 r, R Term t1 r x -> R Simple ((plus, v) :: t1) r (NPos x).
Proof. rr s_pos. Qed.
Lemma r_s_add : forall x op v y t1 t2 r, R Simple t2 ((op, v) :: t1) x -> plus <= op <= or_ -> R Term t1 r y -> R Simple t2 r (NOp op x y).
Proof. rr s_add. Qed.
Lemma r_t_factor : forall x t1 r, R Factor t1 r x -> R Term t1 r x.
Proof. rr t_factor. Qed.
Lemma r_t_mul : forall x op v y t1 t2 r, R Term t2 ((op, v) :: t1) x -> times <= op <= and_ -> R Factor t1 r y -> R Term t2 r (NOp op x y).
Proof. rr t_mul. Qed.
Lemma r_f_num : forall v r, R Factor ((number, v) :: r) r (NNum v).
Proof. rr f_num. Qed.
Lemma r_f_str : forall v r, R Factor ((string_, v) :: r) r (NStr v).
Proof. rr f_str. Qed.
Lemma r_f_nil : forall v r, R Factor ((nil_, v) :: r) r NNil.
Proof. rr f_nil. Qed.
Lemma r_f_par : forall v w x t1 r, R Expr t1 ((rparen, w) :: r) x -> R Factor ((lparen, v) :: t1) r x.
Proof. rr f_par. Qed.
Lemma r_f_empty : forall v w r, R Factor ((lbrace, v) :: ((rbrace, w) :: r)) r NEmpty.
Proof. rr f_empty. Qed.
Lemma r_f_set : forall v w x t1 r, R Elements t1 ((rbrace, w) :: r) x -> R Factor ((lbrace, v) :: t1) r x.
Proof. rr f_set. Qed.
Lemma r_f_not : forall v x t1 r, R Factor t1 r x -> R Factor ((not_, v) :: t1) r (NNot x).
Proof. rr f_not. Qed.
Lemma r_f_des : forall d t1 r, R Desig t1 r d -> isstd d = false -> R Factor t1 r d.
Proof. rr f_des. Qed.
Lemma r_f_call : forall d v l w t1 t2 r, R Desig t2 ((lparen, v) :: t1) d -> isstd d = false -> isvar d = false -> R Args t1 ((rparen, w) :: r) (NSeq l) -> R Factor t2 r (NCall d l).
Proof. rr f_call. Qed.
Lemma r_f_call0 : forall d v w t1 r, R Desig t1 ((lparen, v) :: ((rparen, w) :: r)) d -> isstd d = false -> isvar d = false -> R Factor t1 r (NCall d []).
Proof. rr f_call0. Qed.
Lemma r_f_std : forall d v l w t1 t2 r, R Desig t2 ((lparen, v) :: t1) d -> isstd d = true -> isvar d = false -> R Args t1 ((rparen, w) :: r) (NSeq l) -> R Factor t2 r (NStd d l).
Proof. rr f_std. Qed.
Lemma r_f_std0 : forall d v w t1 r, R Desig t1 ((lparen, v) :: ((rparen, w) :: r)) d -> isstd d = true -> isvar d = false -> R Factor t1 r (NStd d []).
Proof. rr f_std0. Qed.
Lemma r_es_one : forall x t1 r, R Element t1 r x -> R Elements t1 r x.
Proof. rr es_one. Qed.
Lemma r_es_more : forall x v y t1 t2 r, R Elements t2 ((comma, v) :: t1) x -> R Element t1 r y -> R Elements t2 r (NOp plus x y).
Proof. rr es_more. Qed.
Lemma r_e_one : forall x t1 r, R Expr t1 r x -> R Element t1 r (NElem x).
Proof. rr e_one. Qed.
Lemma r_e_range : forall x v y t1 t2 r, R Expr t2 ((upto, v) :: t1) x -> R Expr t1 r y -> R Element t2 r (NRange x y).
Proof. rr e_range. Qed.
Lemma r_q_id : forall x r, ismod x = false -> R Qual ((ident, x) :: r) r (NQual None x).
Proof. rr q_id. Qed.
Lemma r_q_mod : forall m v x r, ismod m = true -> R Qual ((ident, m) :: ((period, v) :: ((ident, x) :: r))) r (NQual (Some m) x).
Proof. rr q_mod. Qed.
Lemma r_d_qual : forall q t1 r, R Qual t1 r q -> R Desig t1 r q.
Proof. rr d_qual. Qed.
Lemma r_d_field : forall d v x t1 r, R Desig t1 ((period, v) :: ((ident, x) :: r)) d -> R Desig t1 r (NField d x).
Proof. rr d_field. Qed.
Lemma r_d_super : forall d v t1 r, R Desig t1 ((arrow, v) :: r) d -> is_tfield d = true -> R Desig t1 r (NSuper d).
Proof. rr d_super. Qed.
Lemma r_d_deref : forall d v t1 r, R Desig t1 ((arrow, v) :: r) d -> is_tfield d = false -> R Desig t1 r (NDeref d).
Proof. rr d_deref. Qed.
Lemma r_d_index : forall d v d' w t1 t2 r, R Desig t2 ((lbrak, v) :: t1) d -> R (Index d) t1 ((rbrak, w) :: r) d' -> R Desig t2 r d'.
Proof. rr d_index. Qed.
Lemma r_d_guard : forall d v t w t1 t2 r, R Desig t2 ((lparen, v) :: t1) d -> isvar d = true -> R Qual t1 ((rparen, w) :: r) t -> R Desig t2 r (NGuard d t).
Proof. rr d_guard. Qed.
Lemma r_i_one : forall d x t1 r, R Expr t1 r x -> R (Index d) t1 r (NIndex d x).
Proof. rr i_one. Qed.
Lemma r_i_more : forall d d' v y t1 t2 r, R (Index d) t2 ((comma, v) :: t1) d' -> R Expr t1 r y -> R (Index d) t2 r (NIndex d' y).
Proof. rr i_more. Qed.
Lemma r_a_one : forall x t1 r, R Expr t1 r x -> R Args t1 r (NSeq [x]).
Proof. rr a_one. Qed.
Lemma r_a_more : forall l v y t1 t2 r, R Args t2 ((comma, v) :: t1) (NSeq l) -> R Expr t1 r y -> R Args t2 r (NSeq (l ++ [y])).
Proof. rr a_more. Qed.
Lemma r_q_one : forall d x t1 r, R (Stat d) t1 r x -> R (Seq d) t1 r (NSeq (snoc [] x)).
Proof. rr q_one. Qed.
Lemma r_q_more : forall d l v y t1 t2 r, R (Seq d) t2 ((semicolon, v) :: t1) (NSeq l) -> R (Stat d) t1 r y -> R (Seq d) t2 r (NSeq (snoc l y)).
Proof. rr q_more. Qed.
Lemma r_st_empty : forall d r, R (Stat d) r r NNone.
Proof. rr st_empty. Qed.
Lemma r_st_assign : forall d x v e t1 t2 r, R Desig t2 ((becomes, v) :: t1) x -> R Expr t1 r e -> R (Stat d) t2 r (NAssign x e).
Proof. rr st_assign. Qed.
Lemma r_st_call : forall d x v l w t1 t2 r, R Desig t2 ((lparen, v) :: t1) x -> isstd x = false -> isvar x = false -> R Args t1 ((rparen, w) :: r) (NSeq l) -> R (Stat d) t2 r (NCall x l).
Proof. rr st_call. Qed.
Lemma r_st_call0 : forall d x v w t1 r, R Desig t1 ((lparen, v) :: ((rparen, w) :: r)) x -> isstd x = false -> isvar x = false -> R (Stat d) t1 r (NCall x []).
Proof. rr st_call0. Qed.
Lemma r_st_proc : forall d x t1 r, R Desig t1 r x -> isstd x = false -> R (Stat d) t1 r (NCall x []).
Proof. rr st_proc. Qed.
Lemma r_st_std : forall d x v l w t1 t2 r, R Desig t2 ((lparen, v) :: t1) x -> isstd x = true -> isvar x = false -> R Args t1 ((rparen, w) :: r) (NSeq l) -> R (Stat d) t2 r (NStd x l).
Proof. rr st_std. Qed.
Lemma r_st_std0 : forall d x v w t1 r, R Desig t1 ((lparen, v) :: ((rparen, w) :: r)) x -> isstd x = true -> isvar x = false -> R (Stat d) t1 r (NStd x []).
Proof. rr st_std0. Qed.
Lemma r_st_if : forall d v x l y w t1 t2 t3 r, R (Arm d) t3 t2 x -> R (Elsifs d) t2 t1 (NSeq l) -> R (Else d) t1 ((end_, w) :: r) y -> R (Stat d) ((if_, v) :: t3) r (NIf (x :: l) y).
Proof. rr st_if. Qed.
Lemma r_st_case : forall d v x w l y u t1 t2 t3 r, R Expr t3 ((of_, w) :: t2) x -> R (Cases d) t2 t1 (NSeq l) -> R (Else d) t1 ((end_, u) :: r) y -> R (Stat d) ((case_, v) :: t3) r (NCase x l y).
Proof. rr st_case. Qed.
Lemma r_st_while : forall d v x w y u t1 t2 r, R Expr t2 ((do_, w) :: t1) x -> R (Seq d) t1 ((end_, u) :: r) y -> R (Stat d) ((while_, v) :: t2) r (NWhile x y).
Proof. rr st_while. Qed.
Lemma r_st_repeat : forall d v x w y t1 t2 r, R (Seq d) t2 ((until_, w) :: t1) x -> R Expr t1 r y -> R (Stat d) ((repeat_, v) :: t2) r (NRepeat x y).
Proof. rr st_repeat. Qed.
Lemma r_st_for : forall d v x v1 e1 v2 e2 s v3 y u t1 t2 t3 t4 t5 r, R Qual t5 ((becomes, v1) :: t4) x -> R Expr t4 ((to_, v2) :: t3) e1 -> R Expr t3 t2 e2 -> R By t2 ((do_, v3) :: t1) s -> R (Seq d) t1 ((end_, u) :: r) y -> R (Stat d) ((for_, v) :: t5) r (NFor x e1 e2 s y).
Proof. rr st_for. Qed.
Lemma r_st_loop : forall d v x w t1 r, R (Seq (d + 1)) t1 ((end_, w) :: r) x -> R (Stat d) ((loop_, v) :: t1) r (NLoop x).
Proof. rr st_loop. Qed.
Lemma r_st_with : forall d v l y w t1 t2 r, R (Withs d) t2 t1 (NSeq l) -> R (Else d) t1 ((end_, w) :: r) y -> R (Stat d) ((with_, v) :: t2) r (NWith l y).
Proof. rr st_with. Qed.
Lemma r_st_exit : forall d v r, d <> 0 -> R (Stat d) ((exit_, v) :: r) r NExit.
Proof. rr st_exit. Qed.
Lemma r_st_return0 : forall d v r, R (Stat d) ((return_, v) :: r) r (NReturn NNone).
Proof. rr st_return0. Qed.
Lemma r_st_return : forall d v x t1 r, R Expr t1 r x -> R (Stat d) ((return_, v) :: t1) r (NReturn x).
Proof. rr st_return. Qed.
Lemma r_m_arm : forall d x v y t1 t2 r, R Expr t2 ((then_, v) :: t1) x -> R (Seq d) t1 r y -> R (Arm d) t2 r (NArm x y).
Proof. rr m_arm. Qed.
Lemma r_ei_none : forall d r, R (Elsifs d) r r (NSeq []).
Proof. rr ei_none. Qed.
Lemma r_ei_more : forall d l v x t1 t2 r, R (Elsifs d) t2 ((elsif_, v) :: t1) (NSeq l) -> R (Arm d) t1 r x -> R (Elsifs d) t2 r (NSeq (l ++ [x])).
Proof. rr ei_more. Qed.
Lemma r_el_none : forall d r, R (Else d) r r NNone.
Proof. rr el_none. Qed.
Lemma r_el_some : forall d v x t1 r, R (Seq d) t1 r x -> R (Else d) ((else_, v) :: t1) r x.
Proof. rr el_some. Qed.
Lemma r_cs_one : forall d x t1 r, R (Case d) t1 r x -> R (Cases d) t1 r (NSeq (snoc [] x)).
Proof. rr cs_one. Qed.
Lemma r_cs_more : forall d l v y t1 t2 r, R (Cases d) t2 ((bar, v) :: t1) (NSeq l) -> R (Case d) t1 r y -> R (Cases d) t2 r (NSeq (snoc l y)).
Proof. rr cs_more. Qed.
Lemma r_c_none : forall d r, R (Case d) r r NNone.
Proof. rr c_none. Qed.
Lemma r_c_some : forall d l v y t1 t2 r, R Labels t2 ((colon, v) :: t1) (NSeq l) -> R (Seq d) t1 r y -> R (Case d) t2 r (NDo l y).
Proof. rr c_some. Qed.
Lemma r_l_one : forall x t1 r, R Element t1 r x -> R Labels t1 r (NSeq [x]).
Proof. rr l_one. Qed.
Lemma r_l_more : forall l v y t1 t2 r, R Labels t2 ((comma, v) :: t1) (NSeq l) -> R Element t1 r y -> R Labels t2 r (NSeq (l ++ [y])).
Proof. rr l_more. Qed.
Lemma r_b_none : forall r, R By r r NNone.
Proof. rr b_none. Qed.
Lemma r_b_some : forall v x t1 r, R Expr t1 r x -> R By ((by_, v) :: t1) r x.
Proof. rr b_some. Qed.
Lemma r_w_one : forall d x t1 r, R (Guarded d) t1 r x -> R (Withs d) t1 r (NSeq [x]).
Proof. rr w_one. Qed.
Lemma r_w_more : forall d l v x t1 t2 r, R (Withs d) t2 ((bar, v) :: t1) (NSeq l) -> R (Guarded d) t1 r x -> R (Withs d) t2 r (NSeq (l ++ [x])).
Proof. rr w_more. Qed.
Lemma r_g_arm : forall d x v t w y t1 t2 t3 r, R Qual t3 ((colon, v) :: t2) x -> R Qual t2 ((do_, w) :: t1) t -> R (Seq d) t1 r y -> R (Guarded d) t3 r (NArm (NIs x t) y).
Proof. rr g_arm. Qed.

(** ** What each mode yields *)
Definition D (m : mode) (s s' : st) (x : node) : Prop :=
  match m with
  | MExpr => R Expr (fst s) (fst s') x
  | MSimple => R Simple (fst s) (fst s') x
  | MSimpleL y => forall t, R Simple t (fst s) y -> R Simple t (fst s') x
  | MTerm => R Term (fst s) (fst s') x
  | MTermL y => forall t, R Term t (fst s) y -> R Term t (fst s') x
  | MFactor => R Factor (fst s) (fst s') x
  | MElement => R Element (fst s) (fst s') x
  | MElementsL y => forall t, R Elements t (fst s) y -> R Elements t (fst s') x
  | MSel y => (is_tfield y = true -> sym s <> 17) -> forall t, R Desig t (fst s) y -> R Desig t (fst s') x /\ (sym s' = 30 -> isvar x = false)
  | MIdx y => is_tfield x = false /\ R (Index y) (fst s) (fst s') x /\ forall d t v, R (Index d) t ((19, v) :: fst s) y -> R (Index d) t (fst s') x
  | MArgsL acc => exists l, x = NSeq l /\ (acc = [] -> R Args (fst s) (fst s') x) /\
      forall t v, R Args t ((19, v) :: fst s) (NSeq acc) -> R Args t (fst s') x
  | MStd y => forall t, R Desig t (fst s) y -> isstd y = true -> (sym s = 30 -> isvar y = false) ->
      R Factor t (fst s') x /\ forall d, R (Stat d) t (fst s') x
  | MStat d acc => exists l, x = NSeq l /\ (acc = [] -> R (Seq d) (fst s) (fst s') x) /\
      forall t v, R (Seq d) t ((39, v) :: fst s) (NSeq acc) -> R (Seq d) t (fst s') x
  | MArm d => R (Arm d) (fst s) (fst s') x
  | MElsifL d acc => exists l, x = NSeq l /\ forall t, R (Elsifs d) t (fst s) (NSeq acc) -> R (Elsifs d) t (fst s') x
  | MElse d => R (Else d) (fst s) (fst s') x
  | MCasesL d acc => exists l, x = NSeq l /\ (acc = [] -> R (Cases d) (fst s) (fst s') x) /\
      forall t v, R (Cases d) t ((40, v) :: fst s) (NSeq acc) -> R (Cases d) t (fst s') x
  | MLabelsL acc => exists l, x = NSeq l /\ (acc = [] -> R Labels (fst s) (fst s') x) /\
      forall t v, R Labels t ((19, v) :: fst s) (NSeq acc) -> R Labels t (fst s') x
  | MWithsL d acc => exists l, x = NSeq l /\ (acc = [] -> R (Withs d) (fst s) (fst s') x) /\
      forall t v, R (Withs d) t ((40, v) :: fst s) (NSeq acc) -> R (Withs d) t (fst s') x
  end.

(** ** Symbols *)
Lemma hd : forall s k, sym s = k -> k <> 64 -> fst s = (k, val s) :: fst (get s).
Proof. intros [[|[a b] r] e] k <- H; cbn in *; [congruence | reflexivity]. Qed.
Lemma check_ok : forall k s, snd (check k s) = [] -> sym s = k /\ snd s = [] /\ check k s = get s.
Proof. intros k s. unfold check. destruct (sym s =? k) eqn:E; cbn; [intros H; apply Z.eqb_eq in E; auto | discriminate]. Qed.
Lemma resync_ok : forall n e s, snd (resync n e s) = [] -> snd s = [] /\ resync n e s = s.
Proof. intros n e s. unfold resync. destruct (sym s <? n); cbn; [discriminate | auto]. Qed.
Lemma qual_ok : forall s q s', qualident s = (q, s') -> sym s = 38 -> snd s' = [] ->
  snd s = [] /\ R Qual (fst s) (fst s') q /\ is_tfield q = false.
Proof.
  intros s q s' E S N. unfold SynModel.qualident in E. pose proof (hd s 38 S ltac:(lia)) as H.
  destruct (ismod (val s)) eqn:M.
  - destruct (sym (get s) =? 18) eqn:P; [|inversion E; subst; discriminate N]. apply Z.eqb_eq in P.
    destruct (sym (get (get s)) =? 38) eqn:I; [|inversion E; subst; discriminate N]. apply Z.eqb_eq in I.
    inversion E; subst. split; [exact N|]. split; [|reflexivity]. rewrite H. rewrite (hd _ _ P) by lia. rewrite (hd _ _ I) by lia.
    apply r_q_mod. exact M.
  - inversion E; subst. split; [exact N|]. split; [|reflexivity]. rewrite H. apply r_q_id. exact M.
Qed.
Lemma more_ok : forall s s', more s = Some s' -> snd s' = [] -> sym s = 19 /\ s' = get s /\ snd s = [].
Proof.
  intros s s' E N. unfold more in E. destruct (sym s =? 19) eqn:C; [inversion E; subst; apply Z.eqb_eq in C; auto|].
  destruct ((30 <=? sym s) && (sym s <=? 38)); inversion E; subst. discriminate N.
Qed.

Section OneStep.
Variable rec : mode -> st -> res (node * st).
Hypothesis IH : forall m s x s', rec m s = Ok (x, s') -> snd s' = [] -> snd s = [] /\ D m s s' x.

Ltac go E := repeat (cbn [bind] in E; cbv zeta in E; match type of E with
  | Ok _ = Ok _ => inversion E; subst; clear E
  | bind (rec ?m ?s) _ = Ok _ => let R := fresh "R" in destruct (rec m s) as [[? ?]|?| |] eqn:R; try discriminate E
  | bind (if ?b then _ else _) _ = Ok _ => let B := fresh "B" in destruct b eqn:B
  | bind (bind (rec ?m ?s) _) _ = Ok _ => let R := fresh "R" in destruct (rec m s) as [[? ?]|?| |] eqn:R; try discriminate E
  | (if ?b then _ else _) = Ok _ => let B := fresh "B" in destruct b eqn:B
  | (let (_, _) := qualident ?s in _) = Ok _ => let R := fresh "Q" in destruct (qualident s) as [? ?] eqn:R
  | match more ?s with _ => _ end = Ok _ => let R := fresh "M" in destruct (more s) as [?|] eqn:R
  end); try (cbn [bind] in E; cbv zeta in E).
Ltac syms := repeat match goal with
  | H : (sym _ =? _) = true |- _ => apply Z.eqb_eq in H
  | H : (_ && _)%bool = true |- _ => apply andb_true_iff in H; destruct H
  | H : (_ <=? _) = true |- _ => apply Z.leb_le in H
  | H : (_ <? _) = true |- _ => apply Z.ltb_lt in H
  end.
Ltac back := repeat match goal with
  | N : snd (check ?k ?s) = [] |- _ => let S := fresh "S" in let C := fresh "C" in
      destruct (check_ok k s N) as (S & N' & C); clear N; rename N' into N; rewrite ?C in *; clear C
  | N : snd (get ?s) = [] |- _ => change (snd s = []) in N
  | N : snd (err _ _) = [] |- _ => discriminate N
  | N : snd ?s = [], Q : rec ?m _ = Ok (_, ?s) |- _ => let N' := fresh "N" in let DD := fresh "DD" in
      destruct (IH _ _ _ _ Q N) as (N' & DD); clear Q; cbn [D] in DD
  | N : snd ?s = [], Q : qualident ?t = (_, ?s), S : sym ?t = 38 |- _ => let N' := fresh "N" in let DD := fresh "DQ" in let DF := fresh "DF" in
      destruct (qual_ok _ _ _ Q S N) as (N' & DD & DF); clear Q
  | N : snd ?s = [], Q : more ?t = Some ?s |- _ => let N' := fresh "N" in let S := fresh "S" in
      destruct (more_ok _ _ Q N) as (S & -> & N'); clear Q
  end.
Ltac heads1 := repeat match goal with
  | S : sym ?s = ?k |- _ => lazymatch k with 38 => fail | _ => idtac end;
      let H := fresh "HD" in pose proof (hd s k S ltac:(lia)) as H; rewrite ?H in *; clear H; revert S
  end; intros.
Ltac heads := do 3 heads1.
Ltac head s k := let H := fresh "HD" in pose proof (hd s k ltac:(assumption) ltac:(lia)) as H; rewrite ?H in *; clear H.

Ltac start := intros s x s' E N; unfold expression, simple, simple_loop, term, term_loop, element, elements_loop, selector, index_loop, args_loop, std_call, call, sets,
  labels_loop, arm, elsif_loop, else_part, cases_loop, withs_loop in E; cbn [D]; go E; syms; back.

Lemma ok_expr : forall s x s', expression ismod rec s = Ok (x, s') -> snd s' = [] -> snd s = [] /\ D MExpr s s' x.
Proof.
  start; (split; [assumption|]).
  - pose proof (hd s0 (sym s0) eq_refl ltac:(lia)) as HD. rewrite HD in DD0. eapply r_x_rel; eauto; lia.
  - heads. eapply r_x_in; eauto.
  - heads. eapply r_x_is; eauto.
  - apply r_x_simple. assumption.
Qed.

Lemma ok_simple : forall s x s', simple rec s = Ok (x, s') -> snd s' = [] -> snd s = [] /\ D MSimple s s' x.
Proof.
  start; (split; [assumption|]); apply DD.
  - heads. apply r_s_neg. assumption.
  - heads. apply r_s_pos. assumption.
  - apply r_s_term. assumption.
Qed.

Lemma ok_simple_loop : forall y s x s', simple_loop rec y s = Ok (x, s') -> snd s' = [] -> snd s = [] /\ D (MSimpleL y) s s' x.
Proof.
  intros y. start; (split; [assumption|]); [|auto].
  intros t T. apply DD. pose proof (hd s (sym s) eq_refl ltac:(lia)) as HD. rewrite HD in T. eapply r_s_add; eauto; lia.
Qed.

Lemma ok_term : forall s x s', term rec s = Ok (x, s') -> snd s' = [] -> snd s = [] /\ D MTerm s s' x.
Proof. start; (split; [assumption|]); apply DD. apply r_t_factor. assumption. Qed.

Lemma ok_term_loop : forall y s x s', term_loop rec y s = Ok (x, s') -> snd s' = [] -> snd s = [] /\ D (MTermL y) s s' x.
Proof.
  intros y. start; (split; [assumption|]); [|auto].
  intros t T. apply DD. pose proof (hd s (sym s) eq_refl ltac:(lia)) as HD. rewrite HD in T. eapply r_t_mul; eauto; lia.
Qed.

Lemma ok_element : forall s x s', element rec s = Ok (x, s') -> snd s' = [] -> snd s = [] /\ D MElement s s' x.
Proof.
  start; (split; [assumption|]).
  - heads. eapply r_e_range; eauto.
  - apply r_e_one. assumption.
Qed.

Lemma ok_elements_loop : forall y s x s', elements_loop rec y s = Ok (x, s') -> snd s' = [] -> snd s = [] /\ D (MElementsL y) s s' x.
Proof.
  intros y. start; (split; [assumption|]); [|auto].
  intros t T. apply DD. heads. eapply r_es_more; eauto.
Qed.

Lemma ok_sets : forall s x s', sets rec s = Ok (x, s') -> snd s' = [] -> snd s = [] /\ forall v, R Factor ((32, v) :: fst s) (fst s') x.
Proof.
  start; (split; [assumption|]); intros v; heads.
  - apply r_f_empty.
  - eapply r_f_set. apply DD. apply r_es_one. assumption.
Qed.

Lemma ok_index_loop : forall y s x s', index_loop rec y s = Ok (x, s') -> snd s' = [] -> snd s = [] /\ D (MIdx y) s s' x.
Proof.
  intros y. start; (split; [assumption|]).
  - destruct DD as (A & B1 & B2). split; [exact A|]. heads. split.
    + eapply B2. apply r_i_one. eassumption.
    + intros d t v T. eapply B2. eapply r_i_more; eauto.
  - split; [reflexivity|]. split.
    + apply r_i_one. assumption.
    + intros d t v T. eapply r_i_more; eauto.
Qed.

Lemma idx_plain : forall d a x, G (Index d) a x -> is_tfield x = false.
Proof. intros d a x H. inversion H; reflexivity. Qed.

Lemma ok_selector : forall y s x s', selector ismod isvar istproc rec y s = Ok (x, s') -> snd s' = [] -> snd s = [] /\ D (MSel y) s s' x.
Proof.
  intros y. start; (split; [assumption|]); intros F t T.
  - destruct DD0 as (A & B1 & _). apply DD; [congruence|]. heads. eapply r_d_index; eauto.
  - apply DD; [discriminate|]. heads. head (get s) 38. change (istproc (NField y (val (get s)))) with (is_tfield (NField y (val (get s)))) in *.
    eapply r_d_super; [|eassumption]. eapply r_d_field. rewrite <- (hd (get (get s)) 17) by (assumption || lia). exact T.
  - apply DD.
    + intros K. match goal with H : _ && _ = false |- _ => apply andb_false_iff in H; cbn in K; rewrite K in H; destruct H as [H|H]; [discriminate|]; now apply Z.eqb_neq end.
    + head s 18. head (get s) 38. eapply r_d_field. exact T.
  - apply DD; [discriminate|]. heads. eapply r_d_deref; [exact T|]. destruct (is_tfield y); [|reflexivity]. exfalso. apply F; auto.
  - apply DD; [discriminate|]. heads. eapply r_d_guard; eauto.
  - split; [exact T|]. intros K. apply Z.eqb_eq in K. rewrite K in *. cbn in *. assumption.
Qed.

Lemma ok_args_loop : forall acc s x s', args_loop rec acc s = Ok (x, s') -> snd s' = [] -> snd s = [] /\ D (MArgsL acc) s s' x.
Proof.
  intros acc. start; (split; [assumption|]).
  - destruct DD as (l & -> & _ & B2). exists l. split; [reflexivity|]. heads. split.
    + intros ->. eapply B2. apply r_a_one. eassumption.
    + intros t v T. eapply B2. eapply r_a_more; eauto.
  - eexists. split; [reflexivity|]. split.
    + intros ->. apply r_a_one. assumption.
    + intros t v T. eapply r_a_more; eauto.
Qed.

Lemma ok_call : forall y s x s', call rec y s = Ok (x, s') -> sym s = 30 -> snd s' = [] -> snd s = [] /\
  forall t, R Desig t (fst s) y -> isstd y = false -> isvar y = false -> R Factor t (fst s') x /\ forall d, R (Stat d) t (fst s') x.
Proof.
  intros y s x s' E S0 N. unfold call in E. go E; syms; back; (split; [assumption|]); intros t T U V.
  - heads. split; [eapply r_f_call0; eauto | intros; eapply r_st_call0; eauto].
  - destruct DD as (l & -> & B1 & _). specialize (B1 eq_refl). heads. cbn [list_of]. split; [eapply r_f_call; eauto | intros; eapply r_st_call; eauto].
Qed.

Lemma ok_std : forall y s x s', std_call rec y s = Ok (x, s') -> snd s' = [] -> snd s = [] /\ D (MStd y) s s' x.
Proof.
  intros y. start; (split; [assumption|]); intros t T U V.
  - specialize (V ltac:(assumption)). heads. split; [eapply r_f_std0; eauto | intros; eapply r_st_std0; eauto].
  - specialize (V ltac:(assumption)). destruct DD as (l & -> & B1 & _). specialize (B1 eq_refl). heads. cbn [list_of].
    split; [eapply r_f_std; eauto | intros; eapply r_st_std; eauto].
Qed.

Lemma ok_factor : forall s x s', factor ismod isstd rec s = Ok (x, s') -> snd s' = [] -> snd s = [] /\ D MFactor s s' x.
Proof.
  intros s x s' E N. unfold factor in E. set (s0 := resync 30 13 s) in *. cbn [D].
  cut (snd s0 = [] /\ R Factor (fst s0) (fst s') x).
  { intros (A & B). destruct (resync_ok _ _ _ A) as (A' & K). unfold s0 in B. rewrite K in B. auto. }
  clearbody s0. clear s. cbv zeta in E.
  destruct (sym s0 =? 38) eqn:B0.
  { destruct (qualident s0) as [q s1] eqn:Q. destruct (rec (MSel q) s1) as [[y s2]|?| |] eqn:R1; try discriminate E. cbn [bind] in E.
    apply Z.eqb_eq in B0.
    assert (K : snd s2 = [] -> snd s0 = [] /\ R Desig (fst s0) (fst s2) y /\ (sym s2 = 30 -> isvar y = false)).
    { intros N2. back. split; [assumption|]. apply DD; [congruence|]. now apply r_d_qual. }
    clear Q R1. destruct (isstd y) eqn:U.
    - back. destruct (K ltac:(assumption)) as (K1 & K2 & K3). split; [assumption|]. apply DD; auto.
    - destruct (sym s2 =? 30) eqn:L.
      + apply Z.eqb_eq in L. destruct (ok_call _ _ _ _ E L N) as (C1 & C2). destruct (K C1) as (K1 & K2 & K3). split; [assumption|]. apply C2; auto.
      + inversion E; subst. destruct (K N) as (K1 & K2 & K3). split; [assumption|]. now apply r_f_des. }
  destruct (sym s0 =? 35) eqn:B1; [apply Z.eqb_eq in B1; go E; back; split; [assumption|]; heads; apply r_f_num|].
  destruct (sym s0 =? 37) eqn:B2; [apply Z.eqb_eq in B2; go E; back; split; [assumption|]; heads; apply r_f_str|].
  destruct (sym s0 =? 36) eqn:B3; [apply Z.eqb_eq in B3; go E; back; split; [assumption|]; heads; apply r_f_nil|].
  destruct (sym s0 =? 30) eqn:B4; [apply Z.eqb_eq in B4; go E; back; split; [assumption|]; heads; eapply r_f_par; eassumption|].
  destruct (sym s0 =? 31) eqn:B5; [go E; back|].
  destruct (sym s0 =? 32) eqn:B6.
  { apply Z.eqb_eq in B6. destruct (ok_sets _ _ _ E N) as (K1 & K2). split; [exact K1|]. heads. apply K2. }
  destruct (sym s0 =? 33) eqn:B7; [apply Z.eqb_eq in B7; go E; back; split; [assumption|]; heads; eapply r_f_not; eassumption|].
  go E. discriminate N.
Qed.

Lemma ok_labels : forall acc s x s', labels_loop rec acc s = Ok (x, s') -> snd s' = [] -> snd s = [] /\ D (MLabelsL acc) s s' x.
Proof.
  intros acc s x s' E N. unfold labels_loop in E. cbn [D].
  destruct (rec MExpr s) as [[e s1]|?| |] eqn:R1; try discriminate E. cbn [bind] in E.
  set (m := if sym s1 =? 21 then _ else _) in E. destruct m as [[y s2]|?| |] eqn:M; try discriminate E. cbn [bind] in E. unfold m in M. clear m.
  assert (K : snd s2 = [] -> snd s = [] /\ R Element (fst s) (fst s2) y).
  { intros N2. go M; syms; back; (split; [assumption|]); [heads; eapply r_e_range; eauto | now apply r_e_one]. }
  go E; syms; back.
  - destruct (K ltac:(assumption)) as (K1 & K2). split; [exact K1|]. destruct DD as (l & -> & _ & B2). exists l. split; [reflexivity|]. heads. split.
    + intros ->. eapply B2. apply r_l_one. eassumption.
    + intros t v T. eapply B2. eapply r_l_more; eauto.
  - destruct (K ltac:(assumption)) as (K1 & K2). split; [exact K1|]. eexists. split; [reflexivity|]. split.
    + intros ->. apply r_l_one. assumption.
    + intros t v T. eapply r_l_more; eauto.
Qed.

Lemma ok_arm : forall d s x s', arm rec d s = Ok (x, s') -> snd s' = [] -> snd s = [] /\ D (MArm d) s s' x.
Proof. intros d. start; (split; [assumption|]). destruct DD as (l & -> & B1 & _). specialize (B1 eq_refl). heads. eapply r_m_arm; eauto. Qed.

Lemma ok_elsif : forall d acc s x s', elsif_loop rec d acc s = Ok (x, s') -> snd s' = [] -> snd s = [] /\ D (MElsifL d acc) s s' x.
Proof.
  intros d acc. start; (split; [assumption|]).
  - destruct DD as (l & -> & B1). eexists. split; [reflexivity|]. intros t T. apply B1. heads. eapply r_ei_more; eauto.
  - eexists. split; [reflexivity|]. auto.
Qed.

Lemma ok_else : forall d s x s', else_part rec d s = Ok (x, s') -> snd s' = [] -> snd s = [] /\ D (MElse d) s s' x.
Proof.
  intros d. start; (split; [assumption|]).
  - destruct DD as (l & -> & B1 & _). specialize (B1 eq_refl). heads. eapply r_el_some; eauto.
  - apply r_el_none.
Qed.

Lemma ok_cases : forall d acc s x s', cases_loop rec d acc s = Ok (x, s') -> snd s' = [] -> snd s = [] /\ D (MCasesL d acc) s s' x.
Proof.
  intros d acc s x s' E N. unfold cases_loop in E. cbn [D].
  set (m := if sym s <? 40 then _ else _) in E. destruct m as [[y s2]|?| |] eqn:M; try discriminate E. cbn [bind] in E. unfold m in M. clear m.
  assert (K : snd s2 = [] -> snd s = [] /\ R (Case d) (fst s) (fst s2) y).
  { intros N2. go M; back; (split; [assumption|]).
    - destruct DD as (l & -> & B1 & _). specialize (B1 eq_refl). destruct DD0 as (l2 & -> & B2 & _). specialize (B2 eq_refl). heads. cbn [list_of]. eapply r_c_some; eauto.
    - apply r_c_none. }
  go E; syms; back.
  - destruct (K ltac:(assumption)) as (K1 & K2). split; [exact K1|]. destruct DD as (l & -> & _ & B2). exists l. split; [reflexivity|]. heads. split.
    + intros ->. eapply B2. apply r_cs_one. eassumption.
    + intros t v T. eapply B2. eapply r_cs_more; eauto.
  - destruct (K ltac:(assumption)) as (K1 & K2). split; [exact K1|]. eexists. split; [reflexivity|]. split.
    + intros ->. apply r_cs_one. assumption.
    + intros t v T. eapply r_cs_more; eauto.
Qed.

Lemma ok_withs : forall d acc s x s', withs_loop ismod rec d acc s = Ok (x, s') -> snd s' = [] -> snd s = [] /\ D (MWithsL d acc) s s' x.
Proof.
  intros d acc s x s' E N. unfold withs_loop in E. cbn [D].
  set (m := if sym s =? 38 then _ else _) in E. destruct m as [g s1] eqn:M. unfold m in M. clear m.
  destruct (rec (MStat d []) (check 27 s1)) as [[y s2]|?| |] eqn:R1; try discriminate E. cbn [bind] in E.
  assert (K : snd s2 = [] -> snd s = [] /\ R (Guarded d) (fst s) (fst s2) (NArm g y)).
  { intros N2. back. destruct DD as (l & -> & B1 & _). specialize (B1 eq_refl).
    destruct (sym s =? 38) eqn:I; [|inversion M; subst; discriminate N0]. apply Z.eqb_eq in I. destruct (qualident s) as [q t1] eqn:Q. cbv zeta in M.
    destruct (sym (check 20 t1) =? 38) eqn:I2; [|inversion M; subst; discriminate N0]. apply Z.eqb_eq in I2.
    destruct (qualident (check 20 t1)) as [t t2] eqn:Q2. inversion M; subst. clear M. back. split; [assumption|].
    heads. eapply r_g_arm; eauto. }
  go E; syms; back.
  - destruct (K ltac:(assumption)) as (K1 & K2). split; [exact K1|]. destruct DD as (l & -> & _ & B2). exists l. split; [reflexivity|]. heads. split.
    + intros ->. eapply B2. apply r_w_one. eassumption.
    + intros t v T. eapply B2. eapply r_w_more; eauto.
  - destruct (K ltac:(assumption)) as (K1 & K2). split; [exact K1|]. eexists. split; [reflexivity|]. split.
    + intros ->. apply r_w_one. assumption.
    + intros t v T. eapply r_w_more; eauto.
Qed.

Lemma ok_statement : forall d s x s', statement ismod isstd rec d s = Ok (x, s') -> snd s' = [] -> snd s = [] /\ R (Stat d) (fst s) (fst s') x.
Proof.
  intros d s x s' E N. unfold statement in E.
  destruct (sym s =? 38) eqn:B0.
  { destruct (qualident s) as [q s1] eqn:Q. destruct (rec (MSel q) s1) as [[y s2]|?| |] eqn:R1; try discriminate E. cbn [bind] in E.
    apply Z.eqb_eq in B0.
    assert (K : snd s2 = [] -> snd s = [] /\ R Desig (fst s) (fst s2) y /\ (sym s2 = 30 -> isvar y = false)).
    { intros N2. back. split; [assumption|]. apply DD; [congruence|]. now apply r_d_qual. }
    clear Q R1.
    destruct (sym s2 =? 34) eqn:A1.
    { go E; syms; back. destruct (K ltac:(assumption)) as (K1 & K2 & K3). split; [assumption|]. clear B0. heads. eapply r_st_assign; eauto. }
    destruct (sym s2 =? 9) eqn:A2; [go E; back; discriminate|].
    destruct (isstd y) eqn:U.
    - back. destruct (K ltac:(assumption)) as (K1 & K2 & K3). split; [assumption|]. apply DD; auto.
    - destruct (sym s2 =? 30) eqn:L.
      + apply Z.eqb_eq in L. destruct (ok_call _ _ _ _ E L N) as (C1 & C2). destruct (K C1) as (K1 & K2 & K3). split; [assumption|]. apply C2; auto.
      + inversion E; subst. destruct (K N) as (K1 & K2 & K3). split; [assumption|]. now apply r_st_proc. }
  destruct (sym s =? 45) eqn:B1.
  { go E; syms; back; split; [assumption|]. destruct DD0 as (l & -> & B2). cbn [list_of]. heads. eapply r_st_if; eauto. apply B2. apply r_ei_none. }
  destruct (sym s =? 46) eqn:B2.
  { go E; syms; back; split; [assumption|]. destruct DD0 as (l & -> & C2 & _). specialize (C2 eq_refl). cbn [list_of]. heads. eapply r_st_case; eauto. }
  destruct (sym s =? 47) eqn:B3.
  { go E; syms; back; split; [assumption|]. destruct DD as (l & -> & C2 & _). specialize (C2 eq_refl). heads. eapply r_st_while; eauto. }
  destruct (sym s =? 48) eqn:B4.
  { go E; syms; back; split; [assumption|]. destruct DD0 as (l & -> & C2 & _). specialize (C2 eq_refl). heads. eapply r_st_repeat; eauto. }
  destruct (sym s =? 49) eqn:B5.
  { go E; syms; back; split; try assumption; destruct DD as (l & -> & C2 & _); specialize (C2 eq_refl); heads.
    - eapply r_st_for; eauto. eapply r_b_some. eassumption.
    - eapply r_st_for; eauto. apply r_b_none. }
  destruct (sym s =? 50) eqn:B6.
  { go E; syms; back; split; [assumption|]. destruct DD as (l & -> & C2 & _). specialize (C2 eq_refl). heads. eapply r_st_loop; eauto. }
  destruct (sym s =? 51) eqn:B7.
  { go E; syms; back; split; [assumption|]. destruct DD0 as (l & -> & C2 & _). specialize (C2 eq_refl). cbn [list_of]. heads. eapply r_st_with; eauto. }
  destruct (sym s =? 52) eqn:B8.
  { cbv zeta in E. inversion E; subst. destruct (d =? 0) eqn:Z0; [discriminate N|]. apply Z.eqb_neq in Z0. syms. back. split; [assumption|]. heads. now apply r_st_exit. }
  destruct (sym s =? 53) eqn:B9.
  { go E; syms; back; (split; [assumption|]); heads; [eapply r_st_return; eauto | apply r_st_return0]. }
  go E. split; [assumption|]. apply r_st_empty.
Qed.

Lemma ok_stat : forall d acc s x s', stat_loop ismod isstd rec d acc s = Ok (x, s') -> snd s' = [] -> snd s = [] /\ D (MStat d acc) s s' x.
Proof.
  intros d acc s x s' E N. unfold stat_loop in E. cbn [D].
  destruct (statement ismod isstd rec d (resync 38 14 s)) as [[y s2]|?| |] eqn:M; try discriminate E. cbn [bind] in E.
  assert (K : snd s2 = [] -> snd s = [] /\ R (Stat d) (fst s) (fst s2) y).
  { intros N2. destruct (ok_statement _ _ _ _ M N2) as (K1 & K2). destruct (resync_ok _ _ _ K1) as (K3 & K4). rewrite K4 in K2. auto. }
  go E; syms; back.
  - destruct (K ltac:(assumption)) as (K1 & K2). split; [exact K1|]. destruct DD as (l & -> & _ & B2). exists l. split; [reflexivity|]. heads. split.
    + intros ->. eapply B2. apply r_q_one. eassumption.
    + intros t v T. eapply B2. eapply r_q_more; eauto.
  - destruct (K ltac:(assumption)) as (K1 & K2). split; [exact K1|]. eexists. split; [reflexivity|]. split.
    + intros ->. apply r_q_one. assumption.
    + intros t v T. eapply r_q_more; eauto.
Qed.
End OneStep.

Lemma sound : forall f m s x s', parse ismod isvar isstd istproc f m s = Ok (x, s') -> snd s' = [] -> snd s = [] /\ D m s s' x.
Proof.
  induction f as [|f IH]; intros m s x s' E N; [discriminate|]. cbn [parse] in E.
  destruct m; cbn [step] in E.
  - eapply ok_expr; eauto.
  - eapply ok_simple; eauto.
  - eapply ok_simple_loop; eauto.
  - eapply ok_term; eauto.
  - eapply ok_term_loop; eauto.
  - eapply ok_factor; eauto.
  - eapply ok_element; eauto.
  - eapply ok_elements_loop; eauto.
  - eapply ok_selector; eauto.
  - eapply ok_index_loop; eauto.
  - eapply ok_args_loop; eauto.
  - eapply ok_std; eauto.
  - eapply ok_stat; eauto.
  - eapply ok_arm; eauto.
  - eapply ok_elsif; eauto.
  - eapply ok_else; eauto.
  - eapply ok_cases; eauto.
  - eapply ok_labels; eauto.
  - eapply ok_withs; eauto.
Qed.
End Sound.
