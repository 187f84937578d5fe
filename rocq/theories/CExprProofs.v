(* C50: lemmas on the parser and on the emitted text. *)
From Coq Require Import ZArith List Bool String Lia.
From Verif Require Import CExprModel CExprSpec.
Import ListNotations.
Open Scope Z_scope.

Lemma parse_mono : forall f g ts r, parse f g ts = Some r -> forall f', (f <= f')%nat -> parse f' g ts = Some r.
Proof.
  induction f; intros g ts r H f' Hf'; [discriminate H|].
  destruct f' as [|f']; [lia|]. assert (L : (f <= f')%nat) by lia. clear Hf'.
  pose proof (fun g ts r H => IHf g ts r H f' L) as IH. clear IHf L.
  cbn [parse] in H |- *.
  Ltac stepm IH H :=
    match type of H with
    | Some _ = Some _ => exact H
    | None = Some _ => discriminate H
    | parse _ _ _ = Some _ => exact (IH _ _ _ H)
    | match parse ?f ?g ?t with _ => _ end = Some _ =>
        let E := fresh "E" in destruct (parse f g t) as [[? ?]|] eqn:E; [rewrite (IH _ _ _ E)|discriminate H]; stepm IH H
    | match ?x with _ => _ end = Some _ => destruct x; stepm IH H
    end.
  destruct g; stepm IH H.
Qed.

Definition P (g : goal) (ts : list tok) (r : list cexp * list tok) : Prop := exists f, parse f g ts = Some r.

Lemma P_fun : forall g ts r r', P g ts r -> P g ts r' -> r = r'.
Proof.
  intros g ts r r' [f H] [f' H'].
  pose proof (parse_mono _ _ _ _ H (max f f') (Nat.le_max_l _ _)).
  pose proof (parse_mono _ _ _ _ H' (max f f') (Nat.le_max_r _ _)). congruence.
Qed.

(* tokens that continue a postfix expression *)
Definition nopost (ts : list tok) : Prop :=
  match ts with (TLb | TDot | TArrow | TLp) :: _ => False | _ => True end.
Definition opbelow (k : Z) (ts : list tok) : Prop :=
  match ts with TOp p :: _ => match level p with Some l => l <= k | None => True end | _ => True end.

Ltac fuel2 H1 H2 :=
  let f1 := fresh "f" in let f2 := fresh "f" in
  destruct H1 as [f1 H1]; destruct H2 as [f2 H2];
  apply (fun H => parse_mono _ _ _ _ H (max f1 f2) (Nat.le_max_l _ _)) in H1;
  apply (fun H => parse_mono _ _ _ _ H (max f1 f2) (Nat.le_max_r _ _)) in H2;
  exists (S (max f1 f2)); cbn [parse].

Lemma P_un : forall p r a r', unary p = true -> P GUnary r ([a], r') -> P GUnary (TOp p :: r) ([CUn p a], r').
Proof. intros p r a r' Hp [f H]. exists (S f). cbn [parse]. rewrite Hp, H. reflexivity. Qed.

Lemma P_cast : forall t k r a r', P GUnary r ([a], r') -> P GUnary (TLp :: TType t k :: TRp :: r) ([CCast t k a], r').
Proof. intros t k r a r' [f H]. exists (S f). cbn [parse]. rewrite H. reflexivity. Qed.

Lemma not_type : forall f m t k r x, parse f (GExpr m) (TType t k :: r) = Some x -> False.
Proof. intros [|[|f]] m t k r x H; discriminate H. Qed.

Lemma not_rp : forall f r x, parse f GArgs (TRp :: r) = Some x -> False.
Proof. intros [|[|[|f]]] r x H; discriminate H. Qed.

Lemma P_paren : forall r a r' res,
  P (GExpr 0) r ([a], TRp :: r') -> P (GPost a) r' res -> P GUnary (TLp :: r) res.
Proof.
  intros r a r' res H1 H2. fuel2 H1 H2.
  destruct r as [|x r]; [rewrite H1; exact H2|].
  destruct x; try (rewrite H1; exact H2).
  exfalso; eapply not_type; exact H1.
Qed.

Lemma P_id : forall x r res, P (GPost (CId x)) r res -> P GUnary (TId x :: r) res.
Proof. intros x r res [f H]. exists (S f). exact H. Qed.
Lemma P_lit : forall x r res, P (GPost (CLit x)) r res -> P GUnary (TLit x :: r) res.
Proof. intros x r res [f H]. exists (S f). exact H. Qed.
Lemma P_dot : forall a x r res, P (GPost (CDot a x)) r res -> P (GPost a) (TDot :: TId x :: r) res.
Proof. intros a x r res [f H]. exists (S f). exact H. Qed.
Lemma P_arrow : forall a x r res, P (GPost (CArrow a x)) r res -> P (GPost a) (TArrow :: TId x :: r) res.
Proof. intros a x r res [f H]. exists (S f). exact H. Qed.
Lemma P_call0 : forall a r res, P (GPost (CCall a [])) r res -> P (GPost a) (TLp :: TRp :: r) res.
Proof. intros a r res [f H]. exists (S f). exact H. Qed.
Lemma P_idx : forall a r b r' res,
  P (GExpr 0) r ([b], TRb :: r') -> P (GPost (CIdx a b)) r' res -> P (GPost a) (TLb :: r) res.
Proof. intros a r b r' res H1 H2. fuel2 H1 H2. rewrite H1. exact H2. Qed.
Lemma P_call : forall a r l r' res,
  P GArgs r (l, r') -> P (GPost (CCall a l)) r' res -> P (GPost a) (TLp :: r) res.
Proof.
  intros a r l r' res H1 H2. fuel2 H1 H2.
  destruct r as [|x r]; [rewrite H1; exact H2|].
  destruct x; try (rewrite H1; exact H2). exfalso; eapply not_rp; exact H1.
Qed.
Lemma P_poststop : forall a r, nopost r -> P (GPost a) r ([a], r).
Proof. intros a r H. exists 1%nat. destruct r as [|[] r]; try reflexivity; destruct H. Qed.
Lemma P_expr : forall m ts a r res, P GUnary ts ([a], r) -> P (GClimb m a) r res -> P (GExpr m) ts res.
Proof. intros m ts a r res H1 H2. fuel2 H1 H2. rewrite H1. exact H2. Qed.
Lemma P_climb : forall m a p l r b r' res, level p = Some l -> m <= l ->
  P (GExpr (l + 1)) r ([b], r') -> P (GClimb m (CBin p a b)) r' res -> P (GClimb m a) (TOp p :: r) res.
Proof.
  intros m a p l r b r' res Hl Hm H1 H2. fuel2 H1 H2. rewrite Hl.
  apply Z.leb_le in Hm. rewrite Hm, H1. exact H2.
Qed.
Lemma P_climbstop : forall m k a r, opbelow k r -> k < m -> P (GClimb m a) r ([a], r).
Proof.
  intros m k a r H Hk. exists 1%nat. cbn [parse]. destruct r as [|[] r]; try reflexivity.
  cbn [opbelow] in H. destruct (level p) as [l|]; [|reflexivity].
  destruct (Z.leb_spec m l); [lia|reflexivity].
Qed.
Lemma P_arg1 : forall ts a r, P (GExpr 0) ts ([a], TRp :: r) -> P GArgs ts ([a], r).
Proof. intros ts a r [f H]. exists (S f). cbn [parse]. rewrite H. reflexivity. Qed.
Lemma P_argn : forall ts a r l r', P (GExpr 0) ts ([a], TComma :: r) -> P GArgs r (l, r') -> P GArgs ts (a :: l, r').
Proof. intros ts a r l r' H1 H2. fuel2 H1 H2. rewrite H1, H2. reflexivity. Qed.

(* ---- texts that stand for a tree in a context ---- *)

Definition Post (ts : list tok) (t : cexp) : Prop :=
  forall rest res, P (GPost t) rest res -> P GUnary (strip ts ++ rest) res.
Definition Un (ts : list tok) (t : cexp) : Prop :=
  forall rest, nopost rest -> P GUnary (strip ts ++ rest) ([t], rest).
Definition Ex (k : Z) (ts : list tok) (t : cexp) : Prop :=
  forall m rest res, m <= k -> nopost rest -> opbelow k rest ->
    P (GClimb m t) rest res -> P (GExpr m) (strip ts ++ rest) res.
Definition Args (ts : list tok) (l : list cexp) : Prop :=
  forall rest, P GArgs (strip ts ++ TRp :: rest) (l, rest).

Lemma strip_app : forall a b, strip (a ++ b) = (strip a ++ strip b)%list.
Proof. intros. apply filter_app. Qed.

Lemma strip_cons : forall a l, strip (a :: l) = if is_sp a then strip l else a :: strip l.
Proof. intros a l. destruct a; reflexivity. Qed.
Lemma strip_nil : strip [] = [].
Proof. reflexivity. Qed.

Lemma Post_Un : forall ts t, Post ts t -> Un ts t.
Proof. intros ts t H rest Hr. apply H. apply P_poststop, Hr. Qed.
Lemma Un_Ex : forall k ts t, Un ts t -> Ex k ts t.
Proof. intros k ts t H m rest res _ Hr _ Hc. eapply P_expr; [apply H, Hr|exact Hc]. Qed.
Lemma Ex_le : forall k k' ts t, k' <= k -> Ex k ts t -> Ex k' ts t.
Proof.
  intros k k' ts t L H m rest res Hm Hn Ho Hc. apply H; try assumption; [lia|].
  destruct rest as [|[] rest]; try exact I. cbn [opbelow] in *. destruct (level p); [lia|exact I].
Qed.

Ltac norm := unfold castto, callof, spaced, Comma; cbn [app]; repeat (rewrite strip_app || rewrite strip_cons || rewrite strip_nil); cbn [is_sp app]; repeat (rewrite <- app_assoc; cbn [app]).

Lemma Un_op : forall p ts t, unary p = true -> Un ts t -> Un (TOp p :: ts) (CUn p t).
Proof. intros p ts t Hp H rest Hr. norm. apply P_un; [exact Hp|apply H, Hr]. Qed.
Lemma Un_cast : forall c k ts t, Un ts t -> Un (castto c k ++ ts) (CCast c k t).
Proof. intros c k ts t H rest Hr. norm. apply P_cast. apply H, Hr. Qed.
Lemma Un_sp : forall ts t, Un ts t -> Un (TSp :: ts) t.
Proof. intros ts t H rest Hr. norm. apply H, Hr. Qed.
Lemma Ex0_close : forall ts t c rest, Ex 0 ts t -> (c = TRp \/ c = TRb \/ c = TComma) ->
  P (GExpr 0) (strip ts ++ c :: rest) ([t], c :: rest).
Proof.
  intros ts t c rest H Hc. apply H; [lia| | |exists 1%nat]; destruct Hc as [->|[->| ->]]; try exact I; reflexivity.
Qed.
Lemma Post_paren : forall ts t, Ex 0 ts t -> Post (TLp :: ts ++ [TRp]) t.
Proof.
  intros ts t H rest res Hp. norm. eapply P_paren; [|exact Hp].
  apply Ex0_close; [exact H|tauto].
Qed.
Lemma Post_id : forall x, Post [TId x] (CId x).
Proof. intros x rest res H. apply P_id, H. Qed.
Lemma Post_lit : forall x, Post [TLit x] (CLit x).
Proof. intros x rest res H. apply P_lit, H. Qed.
Lemma Post_dot : forall ts t x, Post ts t -> Post (ts ++ [TDot; TId x]) (CDot t x).
Proof. intros ts t x H rest res Hp. norm. apply H, P_dot, Hp. Qed.
Lemma Post_arrow : forall ts t x, Post ts t -> Post (ts ++ [TArrow; TId x]) (CArrow t x).
Proof. intros ts t x H rest res Hp. norm. apply H, P_arrow, Hp. Qed.
Lemma Post_idx : forall ts t is ti, Post ts t -> Ex 0 is ti -> Post (ts ++ [TLb] ++ is ++ [TRb]) (CIdx t ti).
Proof.
  intros ts t is ti H Hi rest res Hp. norm. apply H. eapply P_idx; [|exact Hp].
  apply Ex0_close; [exact Hi|tauto].
Qed.
Lemma Post_call : forall ts t a l, Post ts t -> Args a l -> Post (ts ++ [TLp] ++ a ++ [TRp]) (CCall t l).
Proof.
  intros ts t a l H Ha rest res Hp. norm. apply H. eapply P_call; [apply Ha|exact Hp].
Qed.
Lemma Post_call0 : forall ts t, Post ts t -> Post (ts ++ [TLp] ++ [] ++ [TRp]) (CCall t []).
Proof. intros ts t H rest res Hp. norm. apply H, P_call0, Hp. Qed.
Lemma Post_callof : forall x a l, Args a l -> Post (callof (Macro x) a) (fcall x l).
Proof. intros x a l Ha. apply (Post_call [TId (Macro x)] _ a l); [apply Post_id|exact Ha]. Qed.
Lemma Args_one : forall ts t, Ex 0 ts t -> Args ts [t].
Proof. intros ts t H rest. apply P_arg1. apply Ex0_close; [exact H|tauto]. Qed.
Lemma Args_cons : forall ts t a l, Ex 0 ts t -> Args a l -> Args (ts ++ Comma ++ a) (t :: l).
Proof.
  intros ts t a l H Ha rest. norm. eapply P_argn; [|apply Ha]. apply Ex0_close; [exact H|tauto].
Qed.
Lemma Args_cons' : forall ts t a l, Ex 0 ts t -> Args a l -> Args (ts ++ [TComma] ++ a) (t :: l).
Proof.
  intros ts t a l H Ha rest. norm. eapply P_argn; [|apply Ha]. apply Ex0_close; [exact H|tauto].
Qed.
Lemma Ex_bin : forall p k ls tl rs tr, level p = Some k -> Ex k ls tl -> Ex (k + 1) rs tr ->
  Ex k (ls ++ spaced p ++ rs) (CBin p tl tr).
Proof.
  intros p k ls tl rs tr Hp Hl Hr m rest res Hm Hn Ho Hc. norm.
  apply Hl; [exact Hm|exact I|cbn [opbelow]; rewrite Hp; lia|].
  eapply P_climb; [exact Hp|exact Hm| |exact Hc].
  apply Hr; [lia|exact Hn| |apply (P_climbstop _ k); [exact Ho|lia]].
  destruct rest as [|[] rest]; try exact I. cbn [opbelow] in *. destruct (level p0); [lia|exact I].
Qed.

(* ---- the pieces of the emitted text ---- *)

Lemma int_Un : forall z, Un (WriteInt z) (int_tree z).
Proof.
  intros z. unfold WriteInt, int_tree. destruct (is_min z).
  - apply Post_Un. apply (Post_paren [TOp Pminus; TLit (Lint (- (z + 1))); TOp Pminus; TLit (Lint 1)]).
    apply (Ex_le 7); [lia|].
    pose proof (Ex_bin Pminus 7 [TOp Pminus; TLit (Lint (- (z + 1)))] _ [TLit (Lint 1)] _ eq_refl
      (Un_Ex _ _ _ (Un_op Pminus _ _ eq_refl (Post_Un _ _ (Post_lit _)))) (Un_Ex _ _ _ (Post_Un _ _ (Post_lit _)))) as H.
    exact H.
  - destruct (z <? 0).
    + apply Un_op; [reflexivity|]. apply Post_Un, Post_lit.
    + apply Post_Un, Post_lit.
Qed.
Lemma const_Un : forall k, Un (Constant k) (const_tree k).
Proof.
  intros [z|neg s|s]; cbn [Constant const_tree].
  - apply int_Un.
  - destruct neg; cbn [app]; [apply Un_op; [reflexivity|]|]; apply Post_Un, Post_lit.
  - apply Post_Un, Post_lit.
Qed.
Lemma int_Ex : forall k z, Ex k (WriteInt z) (int_tree z).
Proof. intros. apply Un_Ex, int_Un. Qed.

Lemma ident_Post : forall w v, Post (CompleteIdent w false v) (var_tree w false v).
Proof.
  intros [| s | | t] v; cbn [CompleteIdent var_tree app]; try apply Post_id.
  - apply (Post_arrow [TId (Scope s)]), Post_id.
  - apply (Post_paren [TOp Pstar; TLp; TType t 1; TRp; TOp Pamp; TId (Named v)]).
    apply Un_Ex, Un_op; [reflexivity|]. apply (Un_cast t 1), Un_op; [reflexivity|]. apply Post_Un, Post_id.
Qed.
Lemma ident_Un : forall w star v, Un (CompleteIdent w star v) (var_tree w star v).
Proof.
  intros w [|] v; [|apply Post_Un, ident_Post].
  destruct w as [| s | | t].
  - exact (Post_Un _ _ (ident_Post Here v)).
  - cbn [CompleteIdent var_tree app]. apply Un_op; [reflexivity|]. exact (Post_Un _ _ (ident_Post (Outer s) v)).
  - exact (Post_Un _ _ (ident_Post WithRec v)).
  - exact (Post_Un _ _ (ident_Post (WithPtr t) v)).
Qed.
Lemma lenident_Post : forall w v k, Post (LenIdent w v k) (len_ident_tree w v k).
Proof.
  intros [| s | | t] v k; cbn [LenIdent len_ident_tree]; try apply Post_id.
  apply (Post_arrow [TId (Scope s)]), Post_id.
Qed.

Lemma Args_int : forall z, Args (WriteInt z) [int_tree z].
Proof. intros. apply Args_one, int_Ex. Qed.
Lemma Args_idint : forall t z, Args ([TId (Named t)] ++ Comma ++ WriteInt z) [CId (Named t); int_tree z].
Proof. intros. apply (Args_cons [TId (Named t)]); [apply Un_Ex, Post_Un, Post_id|apply Args_int]. Qed.

(* ---- the emitted text ---- *)

Section Emit.
Variable o : opts.

(* OPV.Len as emit uses it, and its tree *)
Definition lent (d : node) (ls : lenspec) : list tok :=
  match ls with
  | LFix z => WriteInt z
  | LDyn k =>
      match d with
      | Deref true q => emit o true q 10 ++ [TArrow; TId (Named "len"); TLb] ++ WriteInt k ++ [TRb]
      | Var w _ v | VarPar w _ v => LenIdent w v k
      | _ => []
      end
  end.
Definition lenc (d : node) (ls : lenspec) : cexp :=
  match ls with
  | LFix z => int_tree z
  | LDyn k =>
      match d with
      | Deref true q => CIdx (CArrow (ctree o q) (Named "len")) (int_tree k)
      | Var w _ v | VarPar w _ v => len_ident_tree w v k
      | _ => CLit (Lint 0)
      end
  end.

(* how a text written for a node at a precedence can be used *)
Definition Fit (prec : Z) (n : node) (ts : list tok) (t : cexp) : Prop :=
  (prec <= 7 -> Ex (prec + 1) ts t) /\ (8 <= prec -> Un ts t) /\
  (10 <= prec -> is_row n = false -> Post ts t) /\ (9 <= Precedence o n -> Un ts t).

Definition Good1 (n : node) : Prop :=
  built o n = true ->
  (forall des prec, -1 <= prec -> prec <> 11 -> (des = true -> is_design n = true) ->
     Fit prec n (emit o des n prec) (ctree o n)) /\
  (is_design n = true -> Post (emit o true n 11) (CUn Pstar (ctree o n))).
Definition Good (n : node) : Prop :=
  Good1 n /\ match n with Deref _ q => Good1 q | _ => True end.

Lemma prec_range : forall n, 0 <= Precedence o n <= 10.
Proof.
  destruct n; cbn [Precedence]; try lia; try (destruct (typchk o); lia); try (destruct arr; lia).
  - destruct p; lia.
  - destruct b; lia.
Qed.

Lemma fit_ds : forall n prec dp b t, -1 <= prec -> dp <= 10 -> 9 <= Precedence o n ->
  Un b t -> (prec = 10 -> dp = 10 -> is_row n = false -> Post b t) ->
  Fit prec n (paren (prec >? dp) b) t.
Proof.
  intros n prec dp b t Hp Hd Hn HU HP. unfold paren.
  destruct (Z.gtb_spec prec dp) as [G|G].
  - assert (X : Post (TLp :: b ++ [TRp]) t) by (apply Post_paren, Un_Ex, HU).
    split; [|split; [|split]]; intros; try exact X; try (apply Un_Ex, Post_Un, X); apply Post_Un, X.
  - split; [|split; [|split]]; intros; try (apply Un_Ex, HU); try exact HU.
    apply HP; [lia|lia|assumption].
Qed.

Lemma fit_xp : forall n prec b t, -1 <= prec ->
  (Precedence o n <= 8 -> Ex (Precedence o n) b t) -> (9 <= Precedence o n -> Un b t) ->
  Fit prec n (paren (negb false && (Precedence o n <=? prec)) b) t.
Proof.
  intros n prec b t Hp H8 H9. unfold paren. cbn [negb andb]. pose proof (prec_range n) as R.
  destruct (Z.leb_spec (Precedence o n) prec) as [G|G].
  - assert (X : Post (TLp :: b ++ [TRp]) t).
    { apply Post_paren. destruct (Z_le_gt_dec (Precedence o n) 8) as [L|L].
      - apply (Ex_le (Precedence o n)); [lia|apply H8, L].
      - apply Un_Ex, H9. lia. }
    split; [|split; [|split]]; intros; try exact X; try (apply Un_Ex, Post_Un, X); apply Post_Un, X.
  - split; [|split; [|split]]; intros; try lia; try (apply H9; lia).
    destruct (Z_le_gt_dec (Precedence o n) 8) as [L|L].
    + apply (Ex_le (Precedence o n)); [lia|apply H8, L].
    + apply Un_Ex, H9. lia.
Qed.

Lemma fit_more : forall n prec c b t, -1 <= prec -> Fit prec n b t -> Fit prec n (paren c b) t.
Proof.
  intros n prec [|] b t Hp H; [|exact H]. unfold paren.
  assert (X : Post (TLp :: b ++ [TRp]) t).
  { apply Post_paren. destruct H as (H1 & H2 & _). destruct (Z_le_gt_dec prec 7) as [L|L].
    - apply (Ex_le (prec + 1)); [lia|apply H1, L].
    - apply Un_Ex, H2. lia. }
  split; [|split; [|split]]; intros; try exact X; try (apply Un_Ex, Post_Un, X); apply Post_Un, X.
Qed.

Lemma star11 : forall prec, prec <> 11 -> (if prec =? ProcTypeVar then [TOp Pstar] else []) = [].
Proof. intros. unfold ProcTypeVar. destruct (Z.eqb_spec prec 11); [contradiction|reflexivity]. Qed.

(* uses of a Good1 node *)
Lemma use_ex : forall n prec, Good1 n -> built o n = true -> -1 <= prec <= 7 ->
  Ex (prec + 1) (emit o false n prec) (ctree o n).
Proof.
  intros n prec H B R. destruct (H B) as [F _].
  destruct (F false prec ltac:(lia) ltac:(lia) ltac:(discriminate)) as (X & _). exact (X ltac:(lia)).
Qed.
Lemma use_min : forall n, Good1 n -> built o n = true -> Ex 0 (emit o false n MinPrec) (ctree o n).
Proof. intros n H B. apply (use_ex n (-1)); [assumption|assumption|lia]. Qed.
Lemma use_un : forall n prec, Good1 n -> built o n = true -> 8 <= prec <= 10 ->
  Un (emit o false n prec) (ctree o n).
Proof.
  intros n prec H B R. destruct (H B) as [F _].
  destruct (F false prec ltac:(lia) ltac:(lia) ltac:(discriminate)) as (_ & X & _). exact (X ltac:(lia)).
Qed.
Lemma use_post : forall n, Good1 n -> built o n = true -> is_design n = true -> is_row n = false ->
  Post (emit o true n 10) (ctree o n).
Proof.
  intros n H B D R. destruct (H B) as [F _].
  destruct (F true 10 ltac:(lia) ltac:(lia) (fun _ => D)) as (_ & _ & X & _). exact (X ltac:(lia) R).
Qed.
Lemma use_un_d : forall n, Good1 n -> built o n = true -> is_design n = true ->
  Un (emit o true n 9) (ctree o n).
Proof.
  intros n H B D. destruct (H B) as [F _].
  destruct (F true 9 ltac:(lia) ltac:(lia) (fun _ => D)) as (_ & X & _). exact (X ltac:(lia)).
Qed.
(* an operand at the precedence of a binary operator *)
Lemma use_op : forall n k, Good1 n -> built o n = true -> 0 <= k <= 8 ->
  Ex (k + 1) (emit o false n k) (ctree o n).
Proof.
  intros n k H B R. destruct (Z.eq_dec k 8) as [->|N].
  - apply Un_Ex. apply use_un; [assumption|assumption|lia].
  - apply use_ex; [assumption|assumption|lia].
Qed.

Lemma len_Un : forall d ls, Good d -> built o d = true -> has_len d = true -> Un (lent d ls) (lenc d ls).
Proof.
  intros d ls G B L. destruct ls as [k|z]; cbn [lent lenc]; [|apply int_Un].
  destruct d; try discriminate L; try (apply Post_Un, lenident_Post).
  cbn [has_len] in L. destruct open; [|discriminate L]. destruct G as [_ G].
  cbn [built] in B. rewrite !andb_true_iff, negb_true_iff in B. destruct B as [[B1 B2] B3].
  apply Post_Un. pose proof (use_post d G B3 B1 B2) as U.
  pose proof (Post_idx _ _ _ _ (Post_arrow _ _ (Named "len") U) (int_Ex 0 k)) as X.
  rewrite <- app_assoc in X. exact X.
Qed.

Definition GoodArgs (a : args) : Prop :=
  built_args o a = true -> match a with ANone => True | _ => Args (emit_args o a) (args_tree o a) end.
Definition GoodIx (ix : ixs) : Prop :=
  forall len tlen, (forall ls, Un (len ls) (tlen ls)) -> built_ix o ix = true ->
  Ex 0 (emit_ix o len ix) (ix_tree o tlen ix).

(* products of lengths *)
Lemma chain_row : forall d row b t, (forall ls, Un (lent d ls) (lenc d ls)) -> Ex 8 b t ->
  Ex 8 (b ++ flat_map (fun ls => spaced Pstar ++ lent d ls) row)
       (fold_left (fun a ls => CBin Pstar a (lenc d ls)) row t).
Proof.
  induction row as [|ls row IH]; intros b t H Hb; cbn [flat_map fold_left].
  - rewrite app_nil_r. exact Hb.
  - rewrite <- app_assoc.
    replace (b ++ spaced Pstar ++ lent d ls ++ flat_map (fun ls0 => spaced Pstar ++ lent d ls0) row)%list
      with ((b ++ spaced Pstar ++ lent d ls) ++ flat_map (fun ls0 => spaced Pstar ++ lent d ls0) row)%list
      by (rewrite <- !app_assoc; reflexivity).
    apply IH; [exact H|]. apply Ex_bin; [reflexivity|exact Hb|apply Un_Ex, H].
Qed.

Lemma chain_prod : forall d ls l, (forall ls, Un (lent d ls) (lenc d ls)) ->
  flat_map (fun l => lent d l ++ spaced Pstar) (l :: ls) =
  ((lent d l ++ flat_map (fun ls => spaced Pstar ++ lent d ls) ls) ++ spaced Pstar)%list.
Proof.
  induction ls as [|x ls IH]; intros l H.
  - cbn [flat_map]. rewrite !app_nil_r. reflexivity.
  - cbn [flat_map] in *. specialize (IH x H). rewrite IH. rewrite <- !app_assoc. reflexivity.
Qed.

Lemma dp_range : forall n prec, 9 <= Precedence o n -> 9 <= designPrec o n prec <= 10.
Proof.
  intros n prec H. pose proof (prec_range n) as R. unfold designPrec.
  destruct n; try lia. destruct w; try lia. destruct (prec =? 10); lia.
Qed.

Lemma design_good : forall n body c, is_design n = true -> 9 <= Precedence o n ->
  (forall prec, c true prec = false) ->
  (forall des prec, emit o des n prec =
     paren (c des prec) (paren (prec >? designPrec o n prec)
       ((if prec =? ProcTypeVar then [TOp Pstar] else []) ++ body))) ->
  Un body (ctree o n) ->
  (designPrec o n 10 = 10 -> is_row n = false -> Post body (ctree o n)) ->
  Good1 n.
Proof.
  intros n body c D R C E U Q _. split.
  - intros des prec H1 H2 _. rewrite E, star11 by exact H2. cbn [app].
    apply fit_more; [exact H1|]. pose proof (dp_range n prec R) as DR.
    apply fit_ds; [exact H1|lia|exact R|exact U|]. intros -> X Y. apply Q; assumption.
  - intros _. rewrite E, C. unfold paren at 1. pose proof (dp_range n 11 R) as DR.
    destruct (Z.gtb_spec 11 (designPrec o n 11)); [|lia]. unfold paren.
    apply Post_paren, Un_Ex, Un_op; [reflexivity|exact U].
Qed.

Lemma expr_good : forall n body, is_design n = false ->
  (forall prec, emit o false n prec = paren (negb false && (Precedence o n <=? prec)) body) ->
  (Precedence o n <= 8 -> Ex (Precedence o n) body (ctree o n)) ->
  (9 <= Precedence o n -> Un body (ctree o n)) ->
  Good1 n.
Proof.
  intros n body D E H8 H9 _. split; [|rewrite D; discriminate].
  intros des prec H1 H2 H3. destruct des; [specialize (H3 eq_refl); congruence|].
  rewrite E. apply fit_xp; assumption.
Qed.

Lemma good_weak : forall n, (built o n = true -> Good1 n) -> Good1 n.
Proof. intros n H B. exact (H B B). Qed.

Definition noparen : bool -> Z -> bool := fun _ _ => false.

Ltac bs H := cbn [built built_args built_ix] in H; repeat rewrite andb_true_iff in H; repeat rewrite negb_true_iff in H.

Lemma good_const : forall k, Good1 (Const k).
Proof.
  intros k. apply (expr_good _ (Constant k)); [reflexivity|reflexivity|cbn; lia|].
  intros _. apply const_Un.
Qed.
Lemma good_proc : forall v, Good1 (Proc v).
Proof.
  intros v. apply (design_good _ [TId (Named v)] noparen); try reflexivity; [cbn; lia| |].
  - apply Post_Un, Post_id.
  - intros _ _. apply Post_id.
Qed.
Lemma good_var : forall w open v, Good1 (Var w open v).
Proof.
  intros w open v. apply (design_good _ (CompleteIdent w (negb open) v) noparen); try reflexivity; [cbn; lia| |].
  - apply ident_Un.
  - cbn [ctree]. destruct w as [| s | | t]; intros H _; [|discriminate H| |].
    + exact (ident_Post Here v).
    + exact (ident_Post WithRec v).
    + exact (ident_Post (WithPtr t) v).
Qed.
Lemma good_varpar : forall w arr v, Good1 (VarPar w arr v).
Proof.
  intros w arr v. apply (design_good _ ((if arr then [] else [TOp Pstar]) ++ CompleteIdent w false v) noparen); try reflexivity.
  - cbn; destruct arr; lia.
  - cbn [ctree]. destruct arr; cbn [app]; [apply Post_Un, ident_Post|].
    apply Un_op; [reflexivity|apply Post_Un, ident_Post].
  - cbn [ctree designPrec Precedence]. destruct arr; [|discriminate]. intros _ _. apply ident_Post.
Qed.
Lemma good_field : forall l f, Good l -> Good1 (Field l f).
Proof.
  intros l f [H Hq]. apply good_weak. intros B. bs B. destruct B as [[[B1 B2] B3] B4].
  apply (design_good _ (match l with
          | Deref _ q => emit o true q 10 ++ [TArrow]
          | _ => emit o true l 10 ++ [TDot]
          end ++ [TId (Named f)]) noparen); try reflexivity; [cbn; lia| |].
  1: apply Post_Un. 2: intros _ _.
  all: destruct l; try discriminate B1;
    try (cbn [ctree]; rewrite <- app_assoc; apply Post_dot; apply use_post; assumption).
  all: rewrite andb_true_iff, negb_true_iff in B4; destruct B4 as [B4 B5]; bs B3; destruct B3 as [_ B3];
    change (ctree o (Field (Deref open l) f)) with (CArrow (ctree o l) (Named f));
    rewrite <- app_assoc; apply Post_arrow; apply use_post; assumption.
Qed.
Lemma good_deref : forall open l, Good l -> Good1 (Deref open l).
Proof.
  intros open l [H _]. apply good_weak. intros B. bs B. destruct B as [[B1 B2] B3].
  apply (design_good _ (if open then emit o true l 10 ++ [TArrow; TId (Named "data")]
          else TOp Pstar :: emit o true l 9) noparen); try reflexivity.
  - cbn [ctree]. destruct open.
    + apply Post_Un, Post_arrow, use_post; assumption.
    + apply Un_op; [reflexivity|]. apply use_un_d; assumption.
  - discriminate.
Qed.

Lemma checked_Un : forall i ts tn plain, Good1 i -> built o i = true -> Un ts tn -> plain = false ->
  Post (callof (Macro (if SideEffects i then "__XF" else "__X")) (emit o false i MinPrec ++ Comma ++ ts))
    (checked i plain (ctree o i) tn).
Proof.
  intros i ts tn plain H B U ->. unfold checked. apply Post_callof.
  apply Args_cons; [apply use_min; assumption|]. apply Args_one, Un_Ex, U.
Qed.

Lemma good_index : forall l i k, Good l -> Good i -> Good1 (Index l i k).
Proof.
  intros l i k [H _] [Hi _]. apply good_weak. intros B. bs B. destruct B as [[[B1 B2] B3] B4].
  assert (X : Post (emit o true l 10 ++ [TLb] ++
          (if plain_index o true i then emit o false i MinPrec
           else callof (Macro (if SideEffects i then "__XF" else "__X"))
                  (emit o false i MinPrec ++ Comma ++ WriteInt k)) ++ [TRb]) (ctree o (Index l i k))).
  { cbn [ctree]. apply Post_idx; [apply use_post; assumption|].
    destruct (plain_index o true i) eqn:E.
    - cbn [checked]. apply use_min; assumption.
    - apply Un_Ex, Post_Un, checked_Un; try assumption; [apply int_Un|reflexivity]. }
  match type of X with Post ?b _ => apply (design_good _ b noparen) end;
    [reflexivity|cbn; lia|reflexivity|reflexivity|apply Post_Un, X|intros _ _; exact X].
Qed.

Lemma good_open : forall d ix row, Good d -> GoodIx ix -> Good1 (Open d ix row).
Proof.
  intros d ix row G Gix. pose proof G as [H _]. apply good_weak. intros B. bs B.
  destruct B as [[[[B1 B2] B3] B4] B5].
  assert (L : forall ls, Un (lent d ls) (lenc d ls)) by (intros ls; apply len_Un; assumption).
  pose proof (Gix (lent d) (lenc d) L B5) as X.
  set (open_row := match row with [] => false | _ => true end).
  apply (design_good _ ((if open_row then [TOp Pamp] else []) ++ emit o true d 10 ++ [TLb] ++
          (if open_row then [TLp] else []) ++
          emit_ix o (lent d) ix ++
          (if open_row then [TRp] else []) ++
          flat_map (fun ls => spaced Pstar ++ lent d ls) row ++
          [TRb]) noparen); try reflexivity; [cbn; lia| |].
  - destruct row as [|r0 row]; subst open_row; cbn [app flat_map].
    + apply Post_Un. change (ctree o (Open d ix [])) with (CIdx (ctree o d) (ix_tree o (lenc d) ix)).
      apply Post_idx; [apply use_post; assumption|exact X].
    + change (ctree o (Open d ix (r0 :: row))) with
        (CUn Pamp (CIdx (ctree o d) (fold_left (fun a ls => CBin Pstar a (lenc d ls)) (r0 :: row) (ix_tree o (lenc d) ix)))).
      apply Un_op; [reflexivity|]. apply Post_Un.
      pose proof (chain_row d (r0 :: row) _ _ L (Un_Ex 8 _ _ (Post_Un _ _ (Post_paren _ _ X)))) as Y.
      apply (Ex_le 8 0) in Y; [|lia].
      pose proof (Post_idx _ _ _ _ (use_post d H B4 B1 B2) Y) as Z. cbn [app flat_map] in Z.
      rewrite <- !app_assoc in Z. cbn [app] in Z. rewrite <- !app_assoc. cbn [app]. exact Z.
  - destruct row as [|r0 row]; [|discriminate]. intros _ _. subst open_row; cbn [app flat_map].
    change (ctree o (Open d ix [])) with (CIdx (ctree o d) (ix_tree o (lenc d) ix)).
    apply Post_idx; [apply use_post; assumption|exact X].
Qed.

Definition gparen (n : node) : bool -> Z -> bool := fun des prec => negb des && (Precedence o n <=? prec).

Lemma good_guardp : forall anon l t lev, Good l -> Good1 (GuardP anon l t lev).
Proof.
  intros anon l t lev [H _]. apply good_weak. intros B. bs B.
  set (n := GuardP anon l t lev).
  apply (design_good n (if typchk o
              then callof (Macro (if anon then "__GUARDA" else "__GUARDP"))
                     (emit o false l MinPrec ++ Comma ++ [TId (Named t)] ++ Comma ++ WriteInt lev)
              else castto t 0 ++ emit o false l (if typchk o then 10 else 9)) (gparen n)); try reflexivity.
  - cbn. destruct (typchk o); lia.
  - subst n. cbn [ctree]. destruct (typchk o).
    + apply Post_Un, Post_callof. apply Args_cons; [apply use_min; assumption|apply Args_idint].
    + apply Un_cast. apply use_un; [assumption|assumption|lia].
  - subst n. cbn [ctree designPrec Precedence]. destruct (typchk o); [|discriminate]. intros _ _.
    apply Post_callof. apply Args_cons; [apply use_min; assumption|apply Args_idint].
Qed.
Lemma good_guardr : forall w v t lev, Good1 (GuardR w v t lev).
Proof.
  intros w v t lev. set (n := GuardR w v t lev).
  assert (X : Args (match w with Outer s => [TId (Scope s); TArrow; TId (Named v)] | _ => [TId (Named v)] end
                      ++ Comma ++ [TId (Named t)] ++ Comma ++ WriteInt lev)
              [match w with Outer s => CArrow (CId (Scope s)) (Named v) | _ => CId (Named v) end; CId (Named t); int_tree lev]).
  { apply Args_cons; [|apply Args_idint]. apply Un_Ex, Post_Un.
    destruct w as [| s | | t']; try apply Post_id. apply (Post_arrow [TId (Scope s)]), Post_id. }
  apply (design_good n (if typchk o
              then callof (Macro "__GUARDR")
                     (match w with Outer s => [TId (Scope s); TArrow; TId (Named v)] | _ => [TId (Named v)] end
                      ++ Comma ++ [TId (Named t)] ++ Comma ++ WriteInt lev)
              else TOp Pstar :: castto t 1 ++ CompleteIdent w false v) (gparen n)); try reflexivity.
  - cbn. destruct (typchk o); lia.
  - subst n. cbn [ctree]. destruct (typchk o).
    + apply Post_Un, Post_callof, X.
    + apply Un_op; [reflexivity|]. apply Un_cast. apply Post_Un, ident_Post.
  - subst n. cbn [ctree designPrec Precedence]. destruct (typchk o); [|discriminate]. intros _ _.
    apply Post_callof, X.
Qed.

Ltac xgood := eapply expr_good; [reflexivity|reflexivity|cbn [Precedence]; try lia|cbn [Precedence]; try lia].

Lemma good_upto : forall l r b, Good l -> Good r -> Good1 (Upto l r b).
Proof.
  intros l r b [H _] [H' _]. apply good_weak. intros B. bs B. destruct B as [B1 B2]. xgood.
  intros _. apply Post_Un. cbn [ctree]. apply Post_callof.
  apply Args_cons; [apply use_min; assumption|]. apply Args_cons; [apply use_min; assumption|apply Args_int].
Qed.
Lemma good_not : forall l, Good l -> Good1 (Not l).
Proof.
  intros l [H _]. apply good_weak. intros B. bs B. xgood.
  intros _. apply Un_op; [reflexivity|]. apply use_un; [assumption|assumption|cbn; lia].
Qed.
Lemma good_minus : forall s l, Good l -> Good1 (Minus s l).
Proof.
  intros s l [H _]. apply good_weak. intros B. bs B. destruct B as [B _]. xgood.
  intros _. cbn [ctree]. destruct s; (apply Un_op; [reflexivity|]; apply use_un; [assumption|assumption|cbn; lia]).
Qed.
Lemma good_is : forall l t lev, Good l -> Good1 (Is l t lev).
Proof.
  intros l t lev [H _]. apply good_weak. intros B. bs B. xgood.
  intros _. apply Post_Un, Post_callof. apply Args_cons; [apply use_min; assumption|apply Args_idint].
Qed.
Lemma good_abs : forall r sm l, Good l -> Good1 (Abs r sm l).
Proof.
  intros r sm l [H _]. apply good_weak. intros B. bs B. xgood.
  intros _. cbn [ctree]. pose proof (Args_one _ _ (use_min l H B)) as A.
  destruct (SideEffects l); [destruct r; [|destruct sm]|].
  - apply Post_Un. apply (Post_callof "__ABSFD"), A.
  - cbn [castto app]. apply (Un_cast "int" 0). apply Post_Un, (Post_callof "__ABSF"), A.
  - apply Post_Un. apply (Post_callof "__ABSF"), A.
  - apply Post_Un. apply (Post_callof "__ABS"), A.
Qed.
Lemma good_cap : forall l, Good l -> Good1 (Cap l).
Proof.
  intros l [H _]. apply good_weak. intros B. bs B. xgood.
  intros _. apply Post_Un, Post_callof, Args_one, use_min; assumption.
Qed.
Lemma good_odd : forall l, Good l -> Good1 (Odd l).
Proof.
  intros l [H _]. apply good_weak. intros B. bs B. xgood.
  intros _. apply Post_Un, Post_callof, Args_one, use_min; assumption.
Qed.
Lemma good_typeof : forall l, Good l -> Good1 (TypeOf l).
Proof.
  intros l [H _]. apply good_weak. intros B. bs B. xgood.
  intros _. apply Post_Un, Post_callof, Args_one, use_min; assumption.
Qed.
Lemma good_adr : forall amp l, Good l -> Good1 (Adr amp l).
Proof.
  intros amp l [H _]. apply good_weak. intros B. bs B. destruct B as [B _]. xgood.
  intros _. cbn [ctree]. apply Un_cast.
  assert (X : Un ((if amp then [TOp Pamp] else []) ++ emit o false l 9) (if amp then CUn Pamp (ctree o l) else ctree o l)).
  { destruct amp; cbn [app]; [apply Un_op; [reflexivity|]|]; (apply use_un; [assumption|assumption|lia]). }
  destruct l; try exact X. apply Post_Un, ident_Post.
Qed.
Lemma good_val : forall c t va l, Good l -> Good1 (Val c t va l).
Proof.
  intros c t va l [H _]. apply good_weak. intros B. bs B. xgood.
  intros _. cbn [ctree]. destruct c.
  - apply Un_cast. destruct va; [apply Un_cast|cbn [app]]; (apply use_un; [assumption|assumption|cbn; lia]).
  - apply Post_Un, Post_callof. apply Args_cons; [apply Un_Ex, Post_Un, Post_id|]. apply Args_one, use_min; assumption.
Qed.
Lemma good_conv : forall c e l, Good l -> Good1 (Conv c e l).
Proof.
  intros c e l [H _]. apply good_weak. intros B. bs B. xgood.
  intros _. cbn [ctree].
  set (te := if e then fcall "__ENTIER" [ctree o l] else ctree o l).
  assert (E0 : Ex 0 (if e then callof (Macro "__ENTIER") (emit o false l MinPrec) else emit o false l MinPrec) te).
  { subst te. destruct e; [|apply use_min; assumption].
    apply Un_Ex, Post_Un, Post_callof, Args_one, use_min; assumption. }
  assert (E9 : Un (if e then callof (Macro "__ENTIER") (emit o false l MinPrec) else emit o false l 9) te).
  { subst te. destruct e; [|apply use_un; [assumption|assumption|lia]].
    apply Post_Un, Post_callof, Args_one, use_min; assumption. }
  destruct c as [bits|bits sh cast| |].
  - apply Post_Un, Post_callof. apply Args_cons'; [exact E0|apply Args_int].
  - destruct (sh && ranchk o).
    + apply Post_Un, Post_callof. apply Args_cons; [exact E0|apply Args_int].
    + destruct cast; [apply Un_cast|]; exact E9.
  - destruct (ranchk o).
    + apply Post_Un, Post_callof, Args_one, E0.
    + apply Un_cast, E9.
  - apply use_un; [assumption|assumption|lia].
Qed.
Lemma good_lenof : forall d ls, Good d -> Good1 (LenOf d ls).
Proof.
  intros d ls G. apply good_weak. intros B. bs B. destruct B as [[B1 B2] _].
  apply (expr_good _ (lent d ls)); [reflexivity|reflexivity|cbn; lia|].
  intros _. change (ctree o (LenOf d ls)) with (lenc d ls). apply len_Un; assumption.
Qed.
Lemma good_lenprod : forall d ls z, Good d -> Good1 (LenProd d ls z).
Proof.
  intros d ls z G. apply good_weak. intros B. bs B. destruct B as [B1 B2].
  assert (L : forall ls, Un (lent d ls) (lenc d ls)) by (intros x; apply len_Un; assumption).
  apply (expr_good _ (flat_map (fun l => lent d l ++ spaced Pstar) ls ++ WriteInt z)); [reflexivity|reflexivity| |cbn; lia].
  intros _. cbn [Precedence]. destruct ls as [|l ls].
  - apply int_Ex.
  - rewrite chain_prod by exact L. rewrite <- app_assoc.
    change (ctree o (LenProd d (l :: ls) z)) with
      (CBin Pstar (fold_left (fun a ls => CBin Pstar a (lenc d ls)) ls (lenc d l)) (int_tree z)).
    apply Ex_bin; [reflexivity| |apply int_Ex]. apply chain_row; [exact L|apply Un_Ex, L].
Qed.
Lemma good_fun2 : forall f l r, Good l -> Good r -> Good1 (Fun2 f l r).
Proof.
  intros f l r [H _] [H' _]. apply good_weak. intros B. bs B. destruct B as [B1 B2]. xgood.
  intros _. cbn [ctree].
  assert (X : Post (callof (Macro (fun2_name f l r))
            (emit o false l MinPrec ++ Comma ++
             (match fun2_shift f with Some k => WriteInt k | None => emit o false r MinPrec end) ++
             (match fun2_bits f with Some b => Comma ++ WriteInt b | None => [] end)))
     (fcall (fun2_name f l r)
                 ([ctree o l; match fun2_shift f with Some k => int_tree k | None => ctree o r end] ++
                  match fun2_bits f with Some b => [int_tree b] | None => [] end))).
  { apply Post_callof. cbn [app]. apply Args_cons; [apply use_min; assumption|].
    assert (Y : Ex 0 (match fun2_shift f with Some k => WriteInt k | None => emit o false r MinPrec end)
                  (match fun2_shift f with Some k => int_tree k | None => ctree o r end)).
    { destruct (fun2_shift f); [apply int_Ex|apply use_min; assumption]. }
    destruct (fun2_bits f).
    - apply Args_cons; [exact Y|apply Args_int].
    - rewrite app_nil_r. apply Args_one, Y. }
  destruct (fun2_int f l r); [apply Un_cast|]; apply Post_Un, X.
Qed.
Lemma good_rel : forall p k l r, Good l -> Good r -> Good1 (Rel p k l r).
Proof.
  intros p k l r [H _] [H' _]. apply good_weak. intros B. bs B. destruct B as [[[B1 B2] B3] B4].
  set (q := Precedence o (Rel p k l r)).
  assert (Q : level p = Some q /\ 5 <= q <= 6) by (subst q; destruct p; try discriminate B3; cbn; split; [reflexivity|lia|reflexivity|lia|reflexivity|lia|reflexivity|lia|reflexivity|lia|reflexivity|lia]).
  destruct Q as [Q1 Q2].
  eapply expr_good; [reflexivity|reflexivity| |fold q; lia].
  intros _. fold q. cbn [ctree]. destruct k.
  - apply Ex_bin; [exact Q1| |apply Un_Ex, Post_Un, Post_lit].
    apply Un_Ex, Post_Un, Post_callof. apply Args_cons; [apply use_min; assumption|]. apply Args_one, use_min; assumption.
  - apply Ex_bin; [exact Q1| |].
    + apply (Ex_le (q + 1)); [lia|apply use_op; [assumption|assumption|lia]].
    + destruct (H' B2) as [F _]. apply Z.leb_le in B4.
      destruct (F false q ltac:(lia) ltac:(lia) ltac:(discriminate)) as (_ & _ & _ & U).
      apply Un_Ex, (Un_cast "void" 1), Un_sp, U, B4.
  - apply Ex_bin; [exact Q1| |apply use_op; [assumption|assumption|lia]].
    apply (Ex_le (q + 1)); [lia|apply use_op; [assumption|assumption|lia]].
Qed.
(* a set operation as the right operand of a set difference is parenthesised *)
Lemma set_operand : forall r, Good1 r -> built o r = true -> Precedence o r <= 4 ->
  Un (emit o false r 4) (ctree o r).
Proof.
  intros r H B L. assert (E : emit o false r 4 = emit o false r 8).
  { destruct r; cbn [Precedence] in L; try lia;
      try (destruct (typchk o); lia); try (destruct arr; lia); try (destruct p; lia).
    cbn [emit]. destruct b; cbn [Precedence] in L |- *; try lia; reflexivity. }
  rewrite E. apply use_un; [assumption|assumption|lia].
Qed.
Lemma good_bin : forall b l r, Good l -> Good r -> Good1 (Bin b l r).
Proof.
  intros b l r [H _] [H' _]. apply good_weak. intros B. bs B. destruct B as [[B1 B2] B3].
  assert (L : forall k, 0 <= k <= 8 -> Ex k (emit o false l k) (ctree o l)).
  { intros k K. apply (Ex_le (k + 1)); [lia|apply use_op; assumption]. }
  assert (R : forall k, 0 <= k <= 8 -> Ex (k + 1) (emit o false r k) (ctree o r)).
  { intros k K. apply use_op; assumption. }
  destruct b as [|c| | | | | | | |]; (eapply expr_good; [reflexivity|reflexivity| |cbn; lia]); intros _;
    cbn [Precedence extra_parens paren bin_text ctree].
  - apply Ex_bin; [reflexivity|apply L; lia|apply R; lia].
  - destruct c as [t|].
    + rewrite <- app_assoc. apply Ex_bin; [reflexivity|apply L; lia|].
      apply Un_Ex, Un_cast. apply use_un; [assumption|assumption|lia].
    + apply Ex_bin; [reflexivity|apply L; lia|apply R; lia].
  - apply Ex_bin; [reflexivity|apply L; lia|apply R; lia].
  - apply Ex_bin; [reflexivity|apply L; lia|apply R; lia].
  - apply Un_Ex, Post_Un, Post_paren, (Ex_le 4); [lia|].
    apply Ex_bin; [reflexivity|apply L; lia|apply R; lia].
  - apply Ex_bin; [reflexivity|apply L; lia|apply R; lia].
  - apply Ex_bin; [reflexivity|apply L; lia|apply R; lia].
  - apply Un_Ex, Post_Un, Post_paren, (Ex_le 4); [lia|].
    rewrite <- app_assoc. apply Ex_bin; [reflexivity|apply L; lia|].
    apply Un_Ex. cbn [app]. apply Un_op; [reflexivity|].
    unfold set_like in B3. rewrite orb_true_iff, !Z.leb_le in B3. destruct (H' B2) as [F _].
    destruct (F false 4 ltac:(lia) ltac:(lia) ltac:(discriminate)) as (_ & _ & _ & U).
    destruct B3 as [B3|B3]; [|exact (U B3)]. apply set_operand; assumption.
  - apply Un_Ex, Post_Un, Post_paren, (Ex_le 1); [lia|].
    apply Ex_bin; [reflexivity|apply L; lia|apply R; lia].
  - apply Ex_bin; [reflexivity|apply L; lia|apply R; lia].
Qed.
Lemma good_call : forall f a, GoodArgs a -> Good1 (Call f a).
Proof.
  intros f a H. apply good_weak. intros B. bs B. specialize (H B). xgood.
  intros _. apply Post_Un. cbn [ctree]. destruct a as [|p n a].
  - apply (Post_call0 [TId f]), Post_id.
  - apply (Post_call [TId f]); [apply Post_id|exact H].
Qed.
Lemma good_callvar : forall l a, Good l -> GoodArgs a -> Good1 (CallVar l a).
Proof.
  intros l a [H _] Ha. apply good_weak. intros B. bs B. destruct B as [[[B1 B2] B3] B4]. specialize (Ha B4). xgood.
  intros _. apply Post_Un. cbn [ctree]. destruct (H B3) as [_ X]. specialize (X B1).
  destruct a as [|p n a].
  - apply Post_call0, X.
  - apply Post_call; [exact X|exact Ha].
Qed.

Lemma good_acons : forall p n a, Good n -> GoodArgs a -> GoodArgs (ACons p n a).
Proof.
  intros p n a [H _] Ha B. bs B. destruct B as [[B1 B2] B3]. specialize (Ha B2).
  assert (X : Ex 0 (match p with
       | PValue => emit o false n MinPrec
       | PCast t => castto t 1 ++ emit o false n MinPrec
       | PRef void => (if void then castto "void" 1 else []) ++ [TOp Pamp] ++ emit o false n 9
       | PValRef t void => castto t 1 ++ (if void then castto "void" 1 else []) ++ [TOp Pamp] ++ emit o false n 9
       | PValArr t => castto t 1 ++ emit o false n 10
       end)
      (match p with
      | PValue => ctree o n
      | PCast t => CCast t 1 (ctree o n)
      | PRef void => if void then CCast "void" 1 (CUn Pamp (ctree o n)) else CUn Pamp (ctree o n)
      | PValRef t void =>
          CCast t 1 (if void then CCast "void" 1 (CUn Pamp (ctree o n)) else CUn Pamp (ctree o n))
      | PValArr t => CCast t 1 (ctree o n)
      end)).
  { assert (U9 : Un ([TOp Pamp] ++ emit o false n 9) (CUn Pamp (ctree o n))).
    { apply Un_op; [reflexivity|]. apply use_un; [assumption|assumption|lia]. }
    destruct p as [|t|v|t v|t].
    - apply use_min; assumption.
    - apply Un_Ex, Un_cast. apply Z.leb_le in B3. destruct (H B1) as [F _].
      destruct (F false MinPrec ltac:(unfold MinPrec; lia) ltac:(unfold MinPrec; lia) ltac:(discriminate)) as (_ & _ & _ & U).
      exact (U B3).
    - apply Un_Ex. destruct v; [apply Un_cast|]; exact U9.
    - apply Un_Ex, Un_cast. destruct v; [apply Un_cast|]; exact U9.
    - apply Un_Ex, Un_cast. apply use_un; [assumption|assumption|lia]. }
  cbn [emit_args args_tree]. destruct a as [|p' n' a'].
  - rewrite app_nil_r. apply Args_one, X.
  - apply Args_cons; [exact X|exact Ha].
Qed.

Lemma good_ilast : forall i ls, Good i -> GoodIx (ILast i ls).
Proof.
  intros i ls [H _] len tlen L B. bs B. cbn [emit_ix ix_tree].
  destruct (plain_index o false i) eqn:E.
  - cbn [checked]. apply use_min; assumption.
  - apply Un_Ex, Post_Un, checked_Un; try assumption; [apply L|reflexivity].
Qed.
Lemma good_icons : forall i ls r, Good i -> GoodIx r -> GoodIx (ICons i ls r).
Proof.
  intros i ls r [H _] Hr len tlen L B. bs B. destruct B as [B1 B2]. cbn [emit_ix ix_tree].
  apply (Ex_le 7); [lia|]. apply Ex_bin; [reflexivity| |].
  - destruct (plain_index o false i) eqn:E.
    + cbn [checked]. apply (Ex_le 8); [lia|]. apply (use_ex i 7); [assumption|assumption|lia].
    + apply Un_Ex, Post_Un, checked_Un; try assumption; [apply L|reflexivity].
  - apply Ex_bin; [reflexivity|apply Un_Ex, L|].
    apply Un_Ex, Post_Un. apply (Post_paren (emit_ix o len r)). apply Hr; assumption.
Qed.
End Emit.

Scheme node_mut := Induction for node Sort Prop
with args_mut := Induction for args Sort Prop
with ixs_mut := Induction for ixs Sort Prop.
Combined Scheme node_args_ixs from node_mut, args_mut, ixs_mut.

Lemma all_good : forall o, (forall n, Good o n) /\ (forall a, GoodArgs o a) /\ (forall ix, GoodIx o ix).
Proof.
  intros o. apply node_args_ixs; intros; try (split; [|exact I]).
  - apply good_const.
  - apply good_var.
  - apply good_varpar.
  - apply good_proc.
  - apply good_field; assumption.
  - split; [apply good_deref; assumption|apply H].
  - apply good_index; assumption.
  - apply good_open; assumption.
  - apply good_guardp; assumption.
  - apply good_guardr.
  - apply good_upto; assumption.
  - apply good_not; assumption.
  - apply good_minus; assumption.
  - apply good_is; assumption.
  - apply good_abs; assumption.
  - apply good_cap; assumption.
  - apply good_odd; assumption.
  - apply good_adr; assumption.
  - apply good_val; assumption.
  - apply good_conv; assumption.
  - apply good_lenof; assumption.
  - apply good_lenprod; assumption.
  - apply good_fun2; assumption.
  - apply good_rel; assumption.
  - apply good_bin; assumption.
  - apply good_typeof; assumption.
  - apply good_call; assumption.
  - apply good_callvar; assumption.
  - intros _. exact I.
  - apply good_acons; assumption.
  - apply good_ilast; assumption.
  - apply good_icons; assumption.
Qed.
