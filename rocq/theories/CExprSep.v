(* C50: the tokens of an emitted expression do not run into each other. *)
From Coq Require Import ZArith List Bool String Lia.
From Verif Require Import CExprModel CExprSpec CExprProofs.
Import ListNotations.
Open Scope Z_scope.

Definition firstt (ts : list tok) : tok := hd TSp ts.
Definition lastt (ts : list tok) : tok := last ts TSp.
Definition starts (t : tok) : bool :=
  match t with TId _ | TLit _ | TLp => true | TOp p => unary p | _ => false end.
Definition ends (t : tok) : bool :=
  match t with TId _ | TLit _ | TRp | TRb => true | _ => false end.

Lemma sep_app : forall a b, separate a = true -> separate b = true ->
  merges (lastt a) (firstt b) = false -> separate (a ++ b) = true.
Proof.
  induction a as [|x a IH]; intros b Ha Hb Hm; [exact Hb|].
  destruct a as [|y a].
  - cbn [app]. destruct b as [|z b]; [reflexivity|].
    change (separate (x :: z :: b)) with (negb (merges x z) && separate (z :: b)).
    unfold lastt, firstt in Hm. cbn [last hd] in Hm. rewrite Hm, Hb. reflexivity.
  - cbn [app]. change (separate (x :: y :: a)) with (negb (merges x y) && separate (y :: a)) in Ha.
    rewrite andb_true_iff in Ha. destruct Ha as [H1 H2].
    change (separate (x :: y :: a ++ b)) with (negb (merges x y) && separate ((y :: a) ++ b)).
    rewrite H1. apply IH; assumption.
Qed.

Lemma last_app : forall a b, b <> [] -> lastt (a ++ b) = lastt b.
Proof.
  intros a b H. unfold lastt. induction a as [|x a IH]; [reflexivity|].
  cbn [app]. destruct a as [|y a]; cbn [app] in *; [destruct b; [contradiction|reflexivity]|exact IH].
Qed.
Lemma first_app : forall a b, a <> [] -> firstt (a ++ b) = firstt a.
Proof. intros [|x a] b H; [contradiction|reflexivity]. Qed.

Lemma last_paren : forall b, lastt (TLp :: b ++ [TRp]) = TRp.
Proof. intros b. change (TLp :: b ++ [TRp])%list with ((TLp :: b) ++ [TRp])%list. rewrite last_app by discriminate. reflexivity. Qed.

(* a text that can stand as an operand *)
Record sx (ts : list tok) : Prop :=
  { sx_sep : separate ts = true; sx_first : starts (firstt ts) = true; sx_last : ends (lastt ts) = true }.

Lemma sx_nonnil : forall ts, sx ts -> ts <> [].
Proof. intros ts [_ H _] ->. discriminate H. Qed.

(* tokens that may follow an operand; all but a dot after a literal *)
Definition follow (t : tok) : bool :=
  match t with TSp | TComma | TLb | TLp | TRp | TRb | TArrow => true | _ => false end.
Lemma ends_follow : forall x y, ends x = true -> follow y = true -> merges x y = false.
Proof. intros x y Hx Hy. destruct x; try discriminate Hx; destruct y; try discriminate Hy; reflexivity. Qed.
(* tokens that may precede an operand *)
Definition precede (t : tok) : bool :=
  match t with TSp | TComma | TLb | TLp | TRp => true | _ => false end.
Lemma precede_starts : forall x y, precede x = true -> starts y = true -> merges x y = false.
Proof. intros x y Hx Hy. destruct x; try discriminate Hx; destruct y; try discriminate Hy; reflexivity. Qed.


Ltac nn := match goal with |- _ <> [] => first [discriminate | apply sx_nonnil; assumption | (intros Z; apply app_eq_nil in Z; destruct Z; discriminate)] end.

(* operand, middle, operand *)
Lemma sx_app : forall a m b, sx a -> m <> [] -> separate m = true -> follow (firstt m) = true -> precede (lastt m) = true -> sx b ->
  sx (a ++ m ++ b).
Proof.
  intros a m b A NM M F Pr B. pose proof (sx_nonnil _ A) as NA. pose proof (sx_nonnil _ B) as NB.
  assert (NMB : (m ++ b)%list <> []) by (destruct m; [contradiction|discriminate]).
  destruct A as [A1 A2 A3], B as [B1 B2 B3]. constructor.
  - apply sep_app; [exact A1| |rewrite first_app by exact NM; apply ends_follow; assumption].
    apply sep_app; [exact M|exact B1|apply precede_starts; assumption].
  - rewrite first_app by exact NA. exact A2.
  - rewrite !last_app by assumption. exact B3.
Qed.
(* operand and what closes it *)
Lemma sx_post : forall a m, sx a -> m <> [] -> separate m = true -> follow (firstt m) = true -> ends (lastt m) = true -> sx (a ++ m).
Proof.
  intros a m A NM M F E. pose proof (sx_nonnil _ A) as NA. destruct A as [A1 A2 A3]. constructor.
  - apply sep_app; [exact A1|exact M|apply ends_follow; assumption].
  - rewrite first_app by exact NA. exact A2.
  - rewrite last_app by exact NM. exact E.
Qed.
(* what opens an operand *)
Lemma sx_pre : forall m b, sx b -> m <> [] -> separate m = true -> starts (firstt m) = true -> precede (lastt m) = true -> sx (m ++ b).
Proof.
  intros m b B NM M S Pr. pose proof (sx_nonnil _ B) as NB. destruct B as [B1 B2 B3]. constructor.
  - apply sep_app; [exact M|exact B1|apply precede_starts; assumption].
  - rewrite first_app by exact NM. exact S.
  - rewrite last_app by exact NB. exact B3.
Qed.

Lemma sx_paren_t : forall b, sx b -> sx (TLp :: b ++ [TRp]).
Proof.
  intros b B. apply (sx_pre [TLp] (b ++ [TRp])); try reflexivity; [|discriminate].
  apply sx_post; try reflexivity; [exact B|discriminate].
Qed.
Lemma sx_paren : forall c b, sx b -> sx (paren c b).
Proof. intros [|] b B; [apply sx_paren_t, B|exact B]. Qed.
Lemma sx_op : forall p b, unary p = true -> sx b -> merges (TOp p) (firstt b) = false -> sx (TOp p :: b).
Proof.
  intros p b Hp B M. pose proof (sx_nonnil _ B) as NB. destruct B as [B1 B2 B3].
  constructor.
  - apply (sep_app [TOp p] b); [reflexivity|exact B1|exact M].
  - exact Hp.
  - change (TOp p :: b) with ([TOp p] ++ b)%list. rewrite last_app by exact NB. exact B3.
Qed.
Lemma sx_cast : forall t k b, sx b -> sx (castto t k ++ b).
Proof. intros t k b B. apply sx_pre; try reflexivity; [exact B|discriminate]. Qed.
Lemma sx_call : forall f a, sx f -> sx a -> sx (f ++ [TLp] ++ a ++ [TRp]).
Proof.
  intros f a F A. apply (sx_app f [TLp] (a ++ [TRp])); try reflexivity; [exact F|discriminate|].
  apply sx_post; try reflexivity; [exact A|discriminate].
Qed.
Lemma sx_id : forall x, sx [TId x].
Proof. intros. constructor; reflexivity. Qed.
Lemma sx_lit : forall x, sx [TLit x].
Proof. intros. constructor; reflexivity. Qed.
Lemma sx_callof : forall x a, sx a -> sx (callof x a).
Proof. intros x a A. apply (sx_call [TId x]); [apply sx_id|exact A]. Qed.
Lemma sx_comma : forall a b, sx a -> sx b -> sx (a ++ Comma ++ b).
Proof. intros a b A B. apply sx_app; try reflexivity; try assumption. discriminate. Qed.
Lemma sx_spaced : forall a p b, sx a -> sx b -> sx (a ++ spaced p ++ b).
Proof. intros a p b A B. apply sx_app; try assumption; [discriminate|destruct p; reflexivity|reflexivity|reflexivity]. Qed.
Lemma sx_idx : forall a i, sx a -> sx i -> sx (a ++ [TLb] ++ i ++ [TRb]).
Proof.
  intros a i A I. apply (sx_app a [TLb] (i ++ [TRb])); try reflexivity; [exact A|discriminate|].
  apply sx_post; try reflexivity; [exact I|discriminate].
Qed.
Lemma sx_arrow : forall a x, sx a -> sx (a ++ [TArrow; TId x]).
Proof. intros a x A. apply sx_post; try reflexivity; [exact A|discriminate]. Qed.
Definition notlit (t : tok) : bool := match t with TLit _ => false | _ => true end.
Lemma sx_dot : forall a x, sx a -> notlit (lastt a) = true -> sx (a ++ [TDot; TId x]).
Proof.
  intros a x A L. pose proof (sx_nonnil _ A) as NA. destruct A as [A1 A2 A3]. constructor.
  - apply sep_app; [exact A1|reflexivity|]. destruct (lastt a); try discriminate L; try discriminate A3; reflexivity.
  - rewrite first_app by exact NA. exact A2.
  - rewrite last_app by discriminate. reflexivity.
Qed.
Lemma sx_int : forall z, sx (WriteInt z).
Proof. intros z. unfold WriteInt. destruct (is_min z); [|destruct (z <? 0)]; constructor; reflexivity. Qed.
Lemma sx_const : forall k, sx (Constant k).
Proof. intros [z|neg s|s]; [apply sx_int|destruct neg; constructor; reflexivity|constructor; reflexivity]. Qed.
Lemma sx_ident : forall w star v, sx (CompleteIdent w star v).
Proof. intros [| s | | t] [|] v; constructor; reflexivity. Qed.
Lemma sx_lenident : forall w v k, sx (LenIdent w v k).
Proof. intros [| s | | t] v k; constructor; reflexivity. Qed.
Lemma sx_sp : forall c k b, sx b -> sx (castto c k ++ [TSp] ++ b).
Proof.
  intros c k b B. rewrite app_assoc. apply sx_pre; try reflexivity; [exact B|discriminate].
Qed.

Section Sep.
Variable o : opts.

Definition S1 (n : node) : Prop :=
  built o n = true ->
  forall des prec, (des = true -> is_design n = true) ->
    sx (emit o des n prec) /\
    (9 <= prec -> prec <> 11 -> firstt (emit o des n prec) = TOp Pminus -> is_neg n = true) /\
    (9 <= prec -> prec <> 11 -> firstt (emit o des n prec) = TOp Pamp -> is_row n = true) /\
    (10 <= prec -> notlit (lastt (emit o des n prec)) = true).
Definition SG (n : node) : Prop := S1 n /\ match n with Deref _ q => S1 q | _ => True end.
Definition SA (a : args) : Prop := built_args o a = true -> match a with ANone => True | _ => sx (emit_args o a) end.
Definition SI (ix : ixs) : Prop :=
  forall len, (forall ls, sx (len ls)) -> built_ix o ix = true -> sx (emit_ix o len ix).

Lemma s_use : forall n prec, S1 n -> built o n = true -> sx (emit o false n prec).
Proof. intros n prec H B. apply (H B false prec). discriminate. Qed.
Lemma s_use_d : forall n prec, S1 n -> built o n = true -> is_design n = true -> sx (emit o true n prec).
Proof. intros n prec H B D. apply (H B true prec). intros _. exact D. Qed.
Lemma s_use_lit : forall n, S1 n -> built o n = true -> is_design n = true -> notlit (lastt (emit o true n 10)) = true.
Proof. intros n H B D. destruct (H B true 10 (fun _ => D)) as (_ & _ & _ & X). apply X. lia. Qed.

Lemma s_op : forall p n, unary p = true -> S1 n -> built o n = true ->
  (p = Pminus -> is_neg n = false) -> (p = Pamp -> is_row n = false) -> sx (TOp p :: emit o false n 9).
Proof.
  intros p n Hp H B Hm Ha. destruct (H B false 9) as (X & Y & Z & _); [discriminate|].
  apply sx_op; [exact Hp|exact X|].
  destruct (firstt (emit o false n 9)) eqn:E; try (destruct p; reflexivity).
  - destruct X as [_ X _]. rewrite E in X. cbn [starts] in X.
    destruct p; try discriminate Hp; destruct p0; try discriminate X; try reflexivity.
    + specialize (Y ltac:(lia) ltac:(lia) eq_refl). rewrite Hm in Y by reflexivity. discriminate Y.
    + specialize (Z ltac:(lia) ltac:(lia) eq_refl). rewrite Ha in Z by reflexivity. discriminate Z.
  - destruct X as [_ X _]. rewrite E in X. discriminate X.
Qed.

(* design classes *)
Lemma s_design : forall n body c,
  (forall des prec, emit o des n prec =
     paren (c des prec) (paren (prec >? designPrec o n prec)
       ((if prec =? ProcTypeVar then [TOp Pstar] else []) ++ body))) ->
  is_design n = true -> 9 <= Precedence o n ->
  sx body -> firstt body <> TOp Pminus -> (is_row n = false -> firstt body <> TOp Pamp) ->
  (designPrec o n 10 = 10 -> notlit (lastt body) = true) ->
  S1 n.
Proof.
  intros n body c E D R X Fm Fa L _ des prec _. rewrite E. pose proof (dp_range o n prec R) as DR.
  assert (Y : sx ((if prec =? ProcTypeVar then [TOp Pstar] else []) ++ body)).
  { destruct (prec =? ProcTypeVar); [|exact X]. cbn [app]. apply sx_op; [reflexivity|exact X|].
    destruct X as [_ X _]. destruct (firstt body); try reflexivity. destruct p; try reflexivity; discriminate X. }
  split; [apply sx_paren, sx_paren, Y|].
  unfold ProcTypeVar in *.
  split; [|split].
  - intros _ N. destruct (c des prec); [discriminate|]. unfold paren at 1.
    destruct (prec >? designPrec o n prec); [discriminate|]. unfold paren.
    destruct (Z.eqb_spec prec 11); [contradiction|]. cbn [app]. intros F. contradiction.
  - intros _ N. destruct (c des prec); [discriminate|]. unfold paren at 1.
    destruct (prec >? designPrec o n prec); [discriminate|]. unfold paren.
    destruct (Z.eqb_spec prec 11); [contradiction|]. cbn [app]. intros F.
    destruct (is_row n) eqn:RW; [reflexivity|]. exfalso. exact (Fa eq_refl F).
  - intros H10. destruct (c des prec).
    { unfold paren at 1. rewrite last_paren. reflexivity. }
    unfold paren at 1. destruct (Z.gtb_spec prec (designPrec o n prec)) as [G|G]; unfold paren.
    { rewrite last_paren. reflexivity. }
    assert (prec = 10) as -> by lia. cbn [Z.eqb app]. apply L. lia.
Qed.
Lemma s_expr : forall n body,
  (forall prec, emit o false n prec = paren (negb false && (Precedence o n <=? prec)) body) ->
  is_design n = false -> sx body ->
  (9 < Precedence o n -> firstt body = TOp Pminus -> is_neg n = true) ->
  (9 < Precedence o n -> firstt body = TOp Pamp -> is_row n = true) ->
  S1 n.
Proof.
  intros n body E D X Fm Fa _ des prec HD. destruct des; [specialize (HD eq_refl); congruence|]. rewrite E.
  cbn [negb andb]. pose proof (prec_range o n) as R. split; [apply sx_paren, X|].
  destruct (Z.leb_spec (Precedence o n) prec); unfold paren.
  - split; [discriminate|split; [discriminate|]]. intros _.
    rewrite last_paren. reflexivity.
  - split; [intros H9 _; apply Fm; lia|split; [intros H9 _; apply Fa; lia|lia]].
Qed.

Ltac bs H := cbn [built built_args built_ix] in H; repeat rewrite andb_true_iff in H; repeat rewrite negb_true_iff in H.
Lemma s_weak : forall n, (built o n = true -> S1 n) -> S1 n.
Proof. intros n H B. exact (H B B). Qed.
Definition noparen : bool -> Z -> bool := fun _ _ => false.
Definition gparen (n : node) : bool -> Z -> bool := fun des prec => negb des && (Precedence o n <=? prec).

Lemma first_ident : forall w star v p, firstt (CompleteIdent w star v) = TOp p -> p = Pstar.
Proof. intros [| s | | t] [|] v p H; cbn in H; try discriminate H; congruence. Qed.
Lemma first_ident_m : forall w star v, firstt (CompleteIdent w star v) <> TOp Pminus.
Proof. intros w star v H. apply first_ident in H. discriminate H. Qed.
Lemma first_ident_a : forall w star v, firstt (CompleteIdent w star v) <> TOp Pamp.
Proof. intros w star v H. apply first_ident in H. discriminate H. Qed.
Lemma last_ident : forall w star v, notlit (lastt (CompleteIdent w star v)) = true.
Proof. intros [| s | | t] [|] v; reflexivity. Qed.

Lemma s_const : forall k, S1 (Const k).
Proof.
  intros k. apply (s_expr _ (Constant k)); [reflexivity|reflexivity|apply sx_const| |].
  - intros _. destruct k as [z|neg s|s]; cbn [Constant is_neg]; unfold WriteInt.
    + destruct (is_min z); [discriminate|]. destruct (z <? 0); [reflexivity|discriminate].
    + destruct neg; [reflexivity|discriminate].
    + discriminate.
  - intros _. destruct k as [z|neg s|s]; cbn [Constant is_neg]; unfold WriteInt.
    + destruct (is_min z); [discriminate|]. destruct (z <? 0); discriminate.
    + destruct neg; discriminate.
    + discriminate.
Qed.
Lemma s_proc : forall v, S1 (Proc v).
Proof.
  intros v. apply (s_design _ [TId (Named v)] noparen); try reflexivity; try discriminate. apply sx_id.
Qed.
Lemma s_var : forall w open v, S1 (Var w open v).
Proof.
  intros w open v. apply (s_design _ (CompleteIdent w (negb open) v) noparen); try reflexivity.
  - cbn; lia.
  - apply sx_ident.
  - apply first_ident_m.
  - intros _. apply first_ident_a.
  - intros _. apply last_ident.
Qed.
Lemma s_varpar : forall w arr v, S1 (VarPar w arr v).
Proof.
  intros w arr v. apply (s_design _ ((if arr then [] else [TOp Pstar]) ++ CompleteIdent w false v) noparen); try reflexivity.
  - cbn; destruct arr; lia.
  - destruct arr; [apply sx_ident|]. cbn [app]. apply sx_op; [reflexivity|apply sx_ident|].
    destruct w; reflexivity.
  - destruct arr; [apply first_ident_m|discriminate].
  - destruct arr; [intros _; apply first_ident_a|discriminate].
  - destruct arr; [intros _; apply last_ident|discriminate].
Qed.

(* the first token of a designator written for a postfix operator *)
Lemma first_post : forall n, S1 n -> built o n = true -> is_design n = true -> is_row n = false ->
  firstt (emit o true n 10) <> TOp Pminus /\ firstt (emit o true n 10) <> TOp Pamp.
Proof.
  intros n H B D R. destruct (H B true 10 (fun _ => D)) as (_ & X & Y & _).
  split; intros F.
  - specialize (X ltac:(lia) ltac:(lia) F). destruct n; discriminate.
  - specialize (Y ltac:(lia) ltac:(lia) F). congruence.
Qed.

Lemma s_field : forall l f, SG l -> S1 (Field l f).
Proof.
  intros l f [H Hq]. apply s_weak. intros B. bs B. destruct B as [[[B1 B2] B3] B4].
  set (body := (match l with
          | Deref _ q => emit o true q 10 ++ [TArrow]
          | _ => emit o true l 10 ++ [TDot]
          end ++ [TId (Named f)])%list).
  assert (X : sx body /\ firstt body <> TOp Pminus /\ firstt body <> TOp Pamp /\ notlit (lastt body) = true).
  { assert (N : forall q, S1 q -> built o q = true -> is_design q = true -> is_row q = false ->
       let b := ((emit o true q 10 ++ [TArrow]) ++ [TId (Named f)])%list in
       sx b /\ firstt b <> TOp Pminus /\ firstt b <> TOp Pamp /\ notlit (lastt b) = true).
    { intros q Sq Bq Dq Rq b. subst b. rewrite <- app_assoc. pose proof (s_use_d q 10 Sq Bq Dq) as U.
      destruct (first_post q Sq Bq Dq Rq) as [F1 F2].
      split; [apply sx_arrow, U|]. rewrite first_app by (apply sx_nonnil, U).
      split; [exact F1|split; [exact F2|]]. rewrite last_app by discriminate. reflexivity. }
    assert (N' : forall q, S1 q -> built o q = true -> is_design q = true -> is_row q = false ->
       let b := ((emit o true q 10 ++ [TDot]) ++ [TId (Named f)])%list in
       sx b /\ firstt b <> TOp Pminus /\ firstt b <> TOp Pamp /\ notlit (lastt b) = true).
    { intros q Sq Bq Dq Rq b. subst b. rewrite <- app_assoc. pose proof (s_use_d q 10 Sq Bq Dq) as U.
      destruct (first_post q Sq Bq Dq Rq) as [F1 F2].
      split; [apply sx_dot; [exact U|apply s_use_lit; assumption]|]. rewrite first_app by (apply sx_nonnil, U).
      split; [exact F1|split; [exact F2|]]. rewrite last_app by discriminate. reflexivity. }
    subst body. destruct l; try discriminate B1; try (apply N'; assumption).
    rewrite andb_true_iff, negb_true_iff in B4; destruct B4 as [B4 B5]; bs B3; destruct B3 as [_ B3].
    apply N; assumption. }
  destruct X as (X1 & X2 & X3 & X4).
  apply (s_design _ body noparen); try reflexivity; try assumption; [cbn; lia|intros _; exact X3|intros _; exact X4].
Qed.
Lemma s_deref : forall open l, SG l -> S1 (Deref open l).
Proof.
  intros open l [H _]. apply s_weak. intros B. bs B. destruct B as [[B1 B2] B3].
  apply (s_design _ (if open then emit o true l 10 ++ [TArrow; TId (Named "data")]
          else TOp Pstar :: emit o true l 9) noparen); try reflexivity.
  - destruct open; [apply sx_arrow, s_use_d; assumption|].
    pose proof (s_use_d l 9 H B3 B1) as U. apply sx_op; [reflexivity|exact U|].
    destruct U as [_ U _]. destruct (firstt (emit o true l 9)); try reflexivity. destruct p; try reflexivity; discriminate U.
  - destruct open; [|discriminate]. rewrite first_app by (apply sx_nonnil, s_use_d; assumption).
    apply first_post; assumption.
  - destruct open; [|discriminate]. intros _. rewrite first_app by (apply sx_nonnil, s_use_d; assumption).
    apply first_post; assumption.
  - discriminate.
Qed.
Lemma s_index : forall l i k, SG l -> SG i -> S1 (Index l i k).
Proof.
  intros l i k [H _] [Hi _]. apply s_weak. intros B. bs B. destruct B as [[[B1 B2] B3] B4].
  set (ii := if plain_index o true i then emit o false i MinPrec
           else callof (Macro (if SideEffects i then "__XF" else "__X"))
                  (emit o false i MinPrec ++ Comma ++ WriteInt k)).
  assert (X : sx ii).
  { subst ii. destruct (plain_index o true i); [apply s_use; assumption|].
    apply sx_callof, sx_comma; [apply s_use; assumption|apply sx_int]. }
  pose proof (s_use_d l 10 H B3 B1) as U.
  apply (s_design _ (emit o true l 10 ++ [TLb] ++ ii ++ [TRb]) noparen); try reflexivity.
  - cbn; lia.
  - apply sx_idx; assumption.
  - rewrite first_app by (apply sx_nonnil, U). apply first_post; assumption.
  - intros _. rewrite first_app by (apply sx_nonnil, U). apply first_post; assumption.
  - intros _. rewrite !app_assoc. rewrite last_app by discriminate. reflexivity.
Qed.

Lemma s_len : forall d ls, SG d -> built o d = true -> has_len d = true -> sx (lent o d ls).
Proof.
  intros d ls G B L. destruct ls as [k|z]; cbn [lent]; [|apply sx_int].
  destruct d; try discriminate L; try apply sx_lenident.
  cbn [has_len] in L. destruct open; [|discriminate L]. destruct G as [_ G].
  bs B. destruct B as [[B1 B2] B3].
  pose proof (sx_idx _ _ (sx_arrow _ (Named "len") (s_use_d d 10 G B3 B1)) (sx_int k)) as X.
  rewrite <- app_assoc in X. exact X.
Qed.
Lemma s_row : forall d row b, (forall ls, sx (lent o d ls)) -> sx b ->
  sx (b ++ flat_map (fun ls => spaced Pstar ++ lent o d ls) row).
Proof.
  induction row as [|ls row IH]; intros b H Hb; cbn [flat_map].
  - rewrite app_nil_r. exact Hb.
  - rewrite <- app_assoc. pose proof (IH _ H (sx_spaced _ Pstar _ Hb (H ls))) as X.
    rewrite <- !app_assoc in X. exact X.
Qed.
Lemma s_open : forall d ix row, SG d -> SI ix -> S1 (Open d ix row).
Proof.
  intros d ix row G Gix. pose proof G as [H _]. apply s_weak. intros B. bs B.
  destruct B as [[[[B1 B2] B3] B4] B5].
  assert (L : forall ls, sx (lent o d ls)) by (intros ls; apply s_len; assumption).
  pose proof (Gix (lent o d) L B5) as X.
  pose proof (s_use_d d 10 H B4 B1) as U. destruct (first_post d H B4 B1 B2) as [F1 F2].
  set (open_row := match row with [] => false | _ => true end).
  set (body := ((if open_row then [TOp Pamp] else []) ++ emit o true d 10 ++ [TLb] ++
          (if open_row then [TLp] else []) ++
          emit_ix o (lent o d) ix ++
          (if open_row then [TRp] else []) ++
          flat_map (fun ls => spaced Pstar ++ lent o d ls) row ++
          [TRb])%list).
  assert (LB : notlit (lastt body) = true).
  { subst body. rewrite !app_assoc. rewrite last_app by discriminate. reflexivity. }
  apply (s_design _ body noparen); try reflexivity; [cbn; lia| | | |intros _; exact LB].
  - subst body. destruct row as [|r0 row]; subst open_row; cbn [app flat_map].
    + apply sx_idx; assumption.
    + pose proof (s_row d (r0 :: row) _ L (sx_paren_t _ X)) as Y.
      pose proof (sx_idx _ _ U Y) as Z. cbn [app flat_map] in Z.
      rewrite <- !app_assoc in Z. cbn [app] in Z. rewrite <- !app_assoc. cbn [app].
      apply sx_op; [reflexivity|exact Z|]. rewrite first_app by (apply sx_nonnil, U).
      destruct U as [_ U _]. destruct (firstt (emit o true d 10)) as [| | |p| | | | | | | |]; try reflexivity.
      destruct p; try reflexivity; try discriminate U. exfalso; apply F2; reflexivity.
  - subst body. destruct row as [|r0 row]; subst open_row; cbn [app]; [|discriminate].
    rewrite first_app by (apply sx_nonnil, U). exact F1.
  - subst body. destruct row as [|r0 row]; subst open_row; cbn [app]; [|discriminate].
    intros _. rewrite first_app by (apply sx_nonnil, U). exact F2.
Qed.
Lemma s_idint : forall t z, sx ([TId (Named t)] ++ Comma ++ WriteInt z).
Proof. intros. apply sx_comma; [apply sx_id|apply sx_int]. Qed.
Lemma last_callof : forall x a, lastt (callof x a) = TRp.
Proof.
  intros x a. unfold callof. change (TId x :: TLp :: a ++ [TRp])%list with ((TId x :: TLp :: a) ++ [TRp])%list.
  rewrite last_app by discriminate. reflexivity.
Qed.
Lemma s_guardp : forall anon l t lev, SG l -> S1 (GuardP anon l t lev).
Proof.
  intros anon l t lev [H _]. apply s_weak. intros B. bs B.
  set (n := GuardP anon l t lev).
  apply (s_design n (if typchk o
              then callof (Macro (if anon then "__GUARDA" else "__GUARDP"))
                     (emit o false l MinPrec ++ Comma ++ [TId (Named t)] ++ Comma ++ WriteInt lev)
              else castto t 0 ++ emit o false l (if typchk o then 10 else 9)) (gparen n)); try reflexivity.
  - cbn. destruct (typchk o); lia.
  - destruct (typchk o).
    + apply sx_callof, sx_comma; [apply s_use; assumption|apply s_idint].
    + apply sx_cast, s_use; assumption.
  - destruct (typchk o); discriminate.
  - destruct (typchk o); discriminate.
  - subst n. cbn [designPrec Precedence]. destruct (typchk o); [|discriminate]. intros _.
    rewrite last_callof. reflexivity.
Qed.
Lemma s_guardr : forall w v t lev, S1 (GuardR w v t lev).
Proof.
  intros w v t lev. set (n := GuardR w v t lev).
  apply (s_design n (if typchk o
              then callof (Macro "__GUARDR")
                     (match w with Outer s => [TId (Scope s); TArrow; TId (Named v)] | _ => [TId (Named v)] end
                      ++ Comma ++ [TId (Named t)] ++ Comma ++ WriteInt lev)
              else TOp Pstar :: castto t 1 ++ CompleteIdent w false v) (gparen n)); try reflexivity.
  - cbn. destruct (typchk o); lia.
  - destruct (typchk o).
    + apply sx_callof, sx_comma; [|apply s_idint]. destruct w; constructor; reflexivity.
    + apply sx_op; [reflexivity|apply sx_cast, sx_ident|reflexivity].
  - destruct (typchk o); discriminate.
  - destruct (typchk o); discriminate.
  - subst n. cbn [designPrec Precedence]. destruct (typchk o); [|discriminate]. intros _.
    rewrite last_callof. reflexivity.
Qed.

(* expression classes of precedence 10 start with a name *)
Ltac xs := eapply s_expr; [reflexivity|reflexivity| |cbn [Precedence]; try lia|cbn [Precedence]; try lia].

Lemma s_upto : forall l r b, SG l -> SG r -> S1 (Upto l r b).
Proof.
  intros l r b [H _] [H' _]. apply s_weak. intros B. bs B. destruct B as [B1 B2]. xs; try discriminate.
  apply sx_callof, sx_comma; [apply s_use; assumption|]. apply sx_comma; [apply s_use; assumption|apply sx_int].
Qed.
Lemma s_not : forall l, SG l -> S1 (Not l).
Proof.
  intros l [H _]. apply s_weak. intros B. bs B. xs.
  apply s_op; [reflexivity|assumption|assumption|discriminate|discriminate].
Qed.
Lemma s_minus : forall s l, SG l -> S1 (Minus s l).
Proof.
  intros s l [H _]. apply s_weak. intros B. bs B. destruct B as [B B2]. xs. destruct s.
  - apply s_op; [reflexivity|assumption|assumption|discriminate|discriminate].
  - apply s_op; [reflexivity|assumption|assumption| |discriminate]. intros _.
    cbn [orb] in B2. rewrite negb_true_iff in B2. exact B2.
Qed.
Lemma s_is : forall l t lev, SG l -> S1 (Is l t lev).
Proof.
  intros l t lev [H _]. apply s_weak. intros B. bs B. xs; try discriminate.
  apply sx_callof, sx_comma; [apply s_use; assumption|apply s_idint].
Qed.
Lemma s_abs : forall r sm l, SG l -> S1 (Abs r sm l).
Proof.
  intros r sm l [H _]. apply s_weak. intros B. bs B.
  xs; try (destruct (SideEffects l); [destruct r; [|destruct sm]|]; discriminate).
  pose proof (s_use l MinPrec H B) as U.
  destruct (SideEffects l); [destruct r; [|destruct sm]|].
  - apply (sx_callof (Macro "__ABSFD")), U.
  - cbn [castto app]. apply (sx_cast "int" 0). apply (sx_callof (Macro "__ABSF")), U.
  - apply (sx_callof (Macro "__ABSF")), U.
  - apply (sx_callof (Macro "__ABS")), U.
Qed.
Lemma s_cap : forall l, SG l -> S1 (Cap l).
Proof. intros l [H _]. apply s_weak. intros B. bs B. xs; try discriminate. apply sx_callof, s_use; assumption. Qed.
Lemma s_odd : forall l, SG l -> S1 (Odd l).
Proof. intros l [H _]. apply s_weak. intros B. bs B. xs; try discriminate. apply sx_callof, s_use; assumption. Qed.
Lemma s_typeof : forall l, SG l -> S1 (TypeOf l).
Proof. intros l [H _]. apply s_weak. intros B. bs B. xs; try discriminate. apply sx_callof, s_use; assumption. Qed.
Lemma s_adr : forall amp l, SG l -> S1 (Adr amp l).
Proof.
  intros amp l [H _]. apply s_weak. intros B. bs B. destruct B as [B B2]. xs. apply sx_cast.
  assert (X : sx ((if amp then [TOp Pamp] else []) ++ emit o false l 9)).
  { destruct amp; cbn [app]; [|apply s_use; assumption].
    apply s_op; [reflexivity|assumption|assumption|discriminate|]. intros _.
    cbn [negb orb] in B2. rewrite negb_true_iff in B2. exact B2. }
  destruct l; try exact X. apply sx_ident.
Qed.
Lemma s_val : forall c t va l, SG l -> S1 (Val c t va l).
Proof.
  intros c t va l [H _]. apply s_weak. intros B. bs B. xs. destruct c.
  - apply sx_cast. destruct va; [apply sx_cast|cbn [app]]; apply s_use; assumption.
  - apply sx_callof, sx_comma; [apply sx_id|apply s_use; assumption].
Qed.
Lemma s_conv : forall c e l, SG l -> S1 (Conv c e l).
Proof.
  intros c e l [H _]. apply s_weak. intros B. bs B. xs.
  assert (E : forall p, sx (if e then callof (Macro "__ENTIER") (emit o false l MinPrec) else emit o false l p)).
  { intros p. destruct e; [apply sx_callof|]; apply s_use; assumption. }
  destruct c as [bits|bits sh cast| |].
  - apply sx_callof. apply sx_app; try reflexivity; [apply E|discriminate|apply sx_int].
  - destruct (sh && ranchk o).
    + apply sx_callof, sx_comma; [apply E|apply sx_int].
    + destruct cast; [apply sx_cast|]; apply E.
  - destruct (ranchk o); [apply sx_callof, E|apply sx_cast, E].
  - apply s_use; assumption.
Qed.
Lemma first_len : forall d ls, SG d -> built o d = true -> has_len d = true ->
  match ls with LFix z => 0 <=? z | LDyn _ => true end = true ->
  firstt (lent o d ls) <> TOp Pminus /\ firstt (lent o d ls) <> TOp Pamp.
Proof.
  intros d ls G B L Z. destruct ls as [k|z]; cbn [lent].
  - destruct d; try discriminate L; try (destruct w; split; discriminate).
    cbn [has_len] in L. destruct open; [|discriminate L]. destruct G as [_ G].
    bs B. destruct B as [[B1 B2] B3].
    rewrite first_app by (apply sx_nonnil, s_use_d; assumption).
    exact (first_post d G B3 B1 B2).
  - apply Z.leb_le in Z. unfold WriteInt. destruct (is_min z); [split; discriminate|].
    destruct (Z.ltb_spec z 0); [lia|split; discriminate].
Qed.
Lemma s_lenof : forall d ls, SG d -> S1 (LenOf d ls).
Proof.
  intros d ls G. apply s_weak. intros B. bs B. destruct B as [[B1 B2] B3].
  destruct (first_len d ls G B2 B1 B3) as [F1 F2].
  apply (s_expr _ (lent o d ls)); [reflexivity|reflexivity|apply s_len; assumption| |].
  - intros _ F. contradiction.
  - intros _ F. contradiction.
Qed.
Lemma s_lenprod : forall d ls z, SG d -> S1 (LenProd d ls z).
Proof.
  intros d ls z G. apply s_weak. intros B. bs B. destruct B as [B1 B2].
  assert (L : forall ls, sx (lent o d ls)) by (intros x; apply s_len; assumption).
  apply (s_expr _ (flat_map (fun l => lent o d l ++ spaced Pstar) ls ++ WriteInt z)); [reflexivity|reflexivity| |cbn; lia|cbn; lia].
  destruct ls as [|l ls].
  - apply sx_int.
  - rewrite chain_prod by (intros x; apply len_Un; try assumption; apply all_good).
    rewrite <- app_assoc. apply sx_spaced; [|apply sx_int]. apply s_row; [exact L|apply L].
Qed.
Lemma s_fun2 : forall f l r, SG l -> SG r -> S1 (Fun2 f l r).
Proof.
  intros f l r [H _] [H' _]. apply s_weak. intros B. bs B. destruct B as [B1 B2].
  xs; try (destruct (fun2_int f l r); discriminate).
  assert (X : sx (callof (Macro (fun2_name f l r))
            (emit o false l MinPrec ++ Comma ++
             (match fun2_shift f with Some k => WriteInt k | None => emit o false r MinPrec end) ++
             (match fun2_bits f with Some b => Comma ++ WriteInt b | None => [] end)))).
  { apply sx_callof. apply sx_comma; [apply s_use; assumption|].
    assert (Y : sx (match fun2_shift f with Some k => WriteInt k | None => emit o false r MinPrec end)).
    { destruct (fun2_shift f); [apply sx_int|apply s_use; assumption]. }
    destruct (fun2_bits f); [apply sx_comma; [exact Y|apply sx_int]|]. rewrite app_nil_r. exact Y. }
  destruct (fun2_int f l r); [apply sx_cast|]; exact X.
Qed.
Lemma s_rel : forall p k l r, SG l -> SG r -> S1 (Rel p k l r).
Proof.
  intros p k l r [H _] [H' _]. apply s_weak. intros B. bs B. destruct B as [[[B1 B2] B3] B4].
  eapply s_expr; [reflexivity|reflexivity| |cbn [Precedence]; destruct p; lia|cbn [Precedence]; destruct p; lia].
  destruct k.
  - apply sx_spaced; [|apply sx_lit]. apply sx_callof, sx_comma; apply s_use; assumption.
  - apply sx_spaced; [apply s_use; assumption|]. apply sx_sp, s_use; assumption.
  - apply sx_spaced; apply s_use; assumption.
Qed.
Lemma tilde_merges : forall x, merges (TOp Ptilde) x = false.
Proof. intros x. destruct x; try reflexivity. Qed.
Lemma s_bin : forall b l r, SG l -> SG r -> S1 (Bin b l r).
Proof.
  intros b l r [H _] [H' _]. apply s_weak. intros B. bs B. destruct B as [[B1 B2] _].
  eapply s_expr; [reflexivity|reflexivity| |cbn [Precedence]; destruct b; lia|cbn [Precedence]; destruct b; lia].
  apply sx_paren.
  assert (X : forall p q, sx (emit o false l q ++ spaced p ++ emit o false r q))
    by (intros; apply sx_spaced; apply s_use; assumption).
  destruct b as [|c| | | | | | | |]; cbn [bin_text]; try apply X.
  - destruct c as [t|]; [|apply X]. rewrite <- app_assoc. apply sx_spaced; [|apply sx_cast]; apply s_use; assumption.
  - rewrite <- app_assoc. apply sx_spaced; [apply s_use; assumption|]. cbn [app].
    pose proof (s_use r (Precedence o (Bin Sminus l r)) H' B2) as U.
    apply sx_op; [reflexivity|exact U|apply tilde_merges].
Qed.
Lemma s_call : forall f a, SA a -> S1 (Call f a).
Proof.
  intros f a H. apply s_weak. intros B. bs B. specialize (H B). xs; try discriminate.
  destruct a as [|p n a]; [constructor; reflexivity|]. apply (sx_call [TId f]); [apply sx_id|exact H].
Qed.
Lemma s_callvar : forall l a, SG l -> SA a -> S1 (CallVar l a).
Proof.
  intros l a [H _] Ha. apply s_weak. intros B. bs B. destruct B as [[[B1 B2] B3] B4]. specialize (Ha B4).
  pose proof (s_use_d l ProcTypeVar H B3 B1) as U.
  assert (F : firstt (emit o true l ProcTypeVar) = TLp).
  { clear - B1. destruct l; try discriminate B1; cbn [emit]; unfold ProcTypeVar; cbn [negb andb paren];
      unfold designPrec; cbn [Precedence].
    all: try reflexivity.
    - destruct w; reflexivity.
    - destruct arr; reflexivity.
    - destruct (typchk o); reflexivity.
    - destruct (typchk o); reflexivity. }
  apply (s_expr _ (emit o true l ProcTypeVar ++ [TLp] ++ emit_args o a ++ [TRp])); [reflexivity|reflexivity| | |].
  - destruct a as [|p n a].
    + apply sx_post; try reflexivity; [exact U|discriminate].
    + apply sx_call; assumption.
  - rewrite first_app by (apply sx_nonnil, U). rewrite F. discriminate.
  - rewrite first_app by (apply sx_nonnil, U). rewrite F. discriminate.
Qed.
Lemma s_acons : forall p n a, SG n -> SA a -> SA (ACons p n a).
Proof.
  intros p n a [H _] Ha B. bs B. destruct B as [[B1 B2] B3]. specialize (Ha B2).
  cbn [emit_args].
  assert (U9 : is_row n = false -> sx ([TOp Pamp] ++ emit o false n 9)).
  { intros R. apply s_op; [reflexivity|assumption|assumption|discriminate|intros _; exact R]. }
  assert (X : sx (match p with
       | PValue => emit o false n MinPrec
       | PCast t => castto t 1 ++ emit o false n MinPrec
       | PRef void => (if void then castto "void" 1 else []) ++ [TOp Pamp] ++ emit o false n 9
       | PValRef t void => castto t 1 ++ (if void then castto "void" 1 else []) ++ [TOp Pamp] ++ emit o false n 9
       | PValArr t => castto t 1 ++ emit o false n 10
       end)).
  { destruct p as [|t|v|t v|t].
    - apply s_use; assumption.
    - apply sx_cast, s_use; assumption.
    - rewrite negb_true_iff in B3. destruct v; [apply sx_cast|]; apply U9, B3.
    - rewrite negb_true_iff in B3. apply sx_cast. destruct v; [apply sx_cast|]; apply U9, B3.
    - apply sx_cast, s_use; assumption. }
  destruct a as [|p' n' a'].
  - rewrite app_nil_r. exact X.
  - apply sx_comma; [exact X|exact Ha].
Qed.
Lemma s_ilast : forall i ls, SG i -> SI (ILast i ls).
Proof.
  intros i ls [H _] len L B. bs B. cbn [emit_ix].
  destruct (plain_index o false i); [apply s_use; assumption|].
  apply sx_callof, sx_comma; [apply s_use; assumption|apply L].
Qed.
Lemma s_icons : forall i ls r, SG i -> SI r -> SI (ICons i ls r).
Proof.
  intros i ls r [H _] Hr len L B. bs B. destruct B as [B1 B2]. cbn [emit_ix].
  apply sx_spaced.
  - destruct (plain_index o false i); [apply s_use; assumption|].
    apply sx_callof, sx_comma; [apply s_use; assumption|apply L].
  - apply sx_spaced; [apply L|]. apply (sx_paren_t (emit_ix o len r)). apply Hr; assumption.
Qed.
End Sep.

Lemma all_sep : forall o, (forall n, SG o n) /\ (forall a, SA o a) /\ (forall ix, SI o ix).
Proof.
  intros o. apply node_args_ixs; intros; try (split; [|exact I]).
  - apply s_const.
  - apply s_var.
  - apply s_varpar.
  - apply s_proc.
  - apply s_field; assumption.
  - split; [apply s_deref; assumption|apply H].
  - apply s_index; assumption.
  - apply s_open; assumption.
  - apply s_guardp; assumption.
  - apply s_guardr.
  - apply s_upto; assumption.
  - apply s_not; assumption.
  - apply s_minus; assumption.
  - apply s_is; assumption.
  - apply s_abs; assumption.
  - apply s_cap; assumption.
  - apply s_odd; assumption.
  - apply s_adr; assumption.
  - apply s_val; assumption.
  - apply s_conv; assumption.
  - apply s_lenof; assumption.
  - apply s_lenprod; assumption.
  - apply s_fun2; assumption.
  - apply s_rel; assumption.
  - apply s_bin; assumption.
  - apply s_typeof; assumption.
  - apply s_call; assumption.
  - apply s_callvar; assumption.
  - intros _. exact I.
  - apply s_acons; assumption.
  - apply s_ilast; assumption.
  - apply s_icons; assumption.
Qed.
