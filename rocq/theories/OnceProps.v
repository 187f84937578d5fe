(** C73: every call written in an expression is executed once. *)
From Verif Require Import Base ArithProofs OnceSpec OnceModel.

Scheme expr_rect3 := Induction for expr Sort Prop with desig_rect3 := Induction for desig Sort Prop with args_rect3 := Induction for args Sort Prop.
Combined Scheme all_ind from expr_rect3, desig_rect3, args_rect3.

(** Wherever m does not end in UB, m' does the same. *)
Definition refines {A} (m m' : M A) : Prop := forall h, (exists h', m h = (UB, h')) \/ m' h = m h.

Lemma calls_eq : (forall e, SideEffects e = calls e) /\ (forall d, SideEffects_d d = calls_d d) /\ (forall a : args, True).
Proof. apply all_ind; intros; cbn [SideEffects SideEffects_d calls calls_d]; try exact I; congruence. Qed.

(** Arithmetic of the macros. *)
Lemma wrap_u_small : forall w x, 0 <= x < 2 ^ w -> wrap_u w x = x.
Proof. intros w x H. unfold wrap_u. apply Z.mod_small. exact H. Qed.
Lemma XF_ok : forall x y, size_t x && size_t y = true -> call_rt XF x y = (if x <? y then Ok x else Trap (-2)) /\ call_rt RF x y = (if x <? y then Ok x else Trap (-8)).
Proof.
  intros x y H. unfold size_t in H. assert (0 <= x < 2 ^ 63 /\ 0 <= y < 2 ^ 63) as [A B] by lia. cbn [call_rt]. rewrite !wrap_u_small by (change (2 ^ 64) with (2 ^ 63 * 2); lia).
  rewrite Z.geb_leb. rewrite Z.leb_antisym. destruct (x <? y); split; reflexivity.
Qed.
Lemma wrap_s_mod : forall s a b, 0 < s -> a mod 2 ^ s = b mod 2 ^ s -> wrap_s s a = wrap_s s b.
Proof.
  intros s a b S H. unfold wrap_s. rewrite (Z.add_comm a), (Z.add_comm b). rewrite <- (Zplus_mod_idemp_r a), <- (Zplus_mod_idemp_r b), H. reflexivity.
Qed.
Lemma truth_0 : forall b, (truth b =? 0) = negb b. Proof. intros []; reflexivity. Qed.
Lemma land_1 : forall x, Z.land x 1 = truth (Z.odd x).
Proof. intro x. change 1 with (Z.ones 1) at 1. rewrite Z.land_ones by lia. change (2 ^ 1) with 2. rewrite Zmod_odd. destruct (Z.odd x); reflexivity. Qed.
Lemma shr_bit : forall u x, 0 <= x -> Z.land (Z.shiftr u x) 1 = truth (Z.testbit u x).
Proof. intros u x H. rewrite land_1. f_equal. rewrite <- Z.bit0_odd, Z.shiftr_spec by lia. reflexivity. Qed.
Lemma lshl_ok : forall s x n, 0 < s -> 0 <= n -> wrap_s s (Z.shiftl (wrap_u s x) n) = wrap_s s (x * 2 ^ n).
Proof. intros s x n S N. apply wrap_s_mod; [exact S|]. rewrite Z.shiftl_mul_pow2 by lia. unfold wrap_u. rewrite Zmult_mod_idemp_l. reflexivity. Qed.
Lemma rng_ok : forall s l h, 0 <= l < s -> 0 <= h < s -> Z.land (wrap_u s (Z.shiftl (-1) l)) (Z.shiftr (2 ^ s - 1) (s - 1 - h)) = upto s l h.
Proof.
  intros s l h L H. unfold upto, wrap_u. replace (2 ^ s - 1) with (Z.ones s) by (rewrite Z.ones_equiv; lia). apply Z.bits_inj'. intros i I. rewrite !Z.land_spec, Z.shiftr_spec by lia. rewrite <- Z.land_ones by lia. rewrite Z.land_spec.
  rewrite !Z.testbit_ones_nonneg by lia. destruct (Z.testbit (Z.shiftl (-1) l) i); cbn [andb]; lia.
Qed.
Lemma short_test : forall s x, 0 < s <= 32 -> - 2 ^ 63 <= x < 2 ^ 63 ->
  let ub := 2 ^ (s - 1) in ((wrap_u 64 (x + ub) <? ub + ub) = (- 2 ^ (s - 1) <=? x) && (x <? 2 ^ (s - 1))) /\ wrap_u 64 (ub + ub) = ub + ub /\ ((- 2 ^ (s - 1) <=? x) && (x <? 2 ^ (s - 1)) = true -> wrap_u 64 (x + ub) = x + ub).
Proof.
  intros s x S X ub. fold ub. assert (B : 0 < ub <= 2 ^ 31). { unfold ub. split; [apply Z.pow_pos_nonneg; lia|apply Z.pow_le_mono_r; lia]. }
  unfold wrap_u. change (2 ^ 64) with (2 ^ 63 * 2). change (2 ^ 31) with 2147483648 in B. assert (P : 2 ^ 63 = 9223372036854775808) by reflexivity. rewrite P in *.
  destruct (Z.ltb_spec (x + ub) 0).
  - rewrite <- (Z_mod_plus_full (x + ub) 1). rewrite !Z.mod_small by lia. split; [lia|]. split; [reflexivity|lia].
  - rewrite !Z.mod_small by lia. split; [lia|]. split; [reflexivity|lia].
Qed.

Section World.
Variables ranchk inxchk typchk : bool.
Variable result : history -> Z -> list val -> Z.
Variable mem : history -> loc -> Z.
Variable tag len : Z -> Z.
Variable extends : Z -> Z -> bool.
Variable method : Z -> Z -> Z.
Notation eval := (eval ranchk inxchk typchk result mem tag len extends method).
Notation place := (place ranchk inxchk typchk result mem tag len extends method).
Notation arguments := (arguments ranchk inxchk typchk result mem tag len extends method).
Notation once := (once ranchk inxchk typchk result mem tag len extends method).
Notation once_d := (once_d ranchk inxchk typchk result mem tag len extends method).
Notation once_a := (once_a ranchk inxchk typchk result mem tag len extends method).
Notation steady := (steady ranchk inxchk typchk result mem tag len extends method).
Notation gen := (gen ranchk inxchk typchk).
Notation gen_d := (gen_d ranchk inxchk typchk).
Notation gen_a := (gen_a ranchk inxchk typchk).
Notation cev := (cev result mem tag len extends method).
Notation clv := (clv result mem tag len extends method).
Notation cargv := (cargv result mem tag len extends method).

(** Without calls nothing is executed. *)
Lemma bnd_snd : forall A B (m : M A) (k : A -> M B) h, snd (m h) = h -> (forall a, snd (k a h) = h) -> snd (bnd m k h) = h.
Proof. intros A B m k h H K. unfold bnd. destruct (m h) as [[a|c| |] h1]; cbn in *; subst; auto. Qed.
Lemma quiet : (forall e, calls e = false -> forall h, snd (eval e h) = h) /\ (forall d, calls_d d = false -> forall h, snd (place d h) = h) /\ (forall a : args, True).
Proof.
  apply all_ind; intros; try exact I; cbn [calls calls_d] in *; try discriminate; cbn [OnceSpec.eval OnceSpec.place];
    repeat match goal with H : _ || _ = false |- _ => apply orb_false_iff in H; destruct H end;
    repeat (try reflexivity; first [apply bnd_snd; [solve [auto]|intros ?] | match goal with |- context [if ?b then _ else _] => destruct b end]); auto.
Qed.

(** Unfolding across the mutual definitions. *)
Lemma u_load : forall d, eval (ELoad d) = (do l <- place d; fun h => (Ok (mem h l), h)). Proof. reflexivity. Qed.
Lemma u_call : forall f a, eval (ECall f a) = (do vs <- arguments a; fun h => (Ok (result h f vs), Called f vs :: h)). Proof. reflexivity. Qed.
Lemma u_send : forall m e a, eval (ESend m e a) = (do p <- eval e; do p <- fail (object p); do vs <- arguments a; fun h => (Ok (result h (method (tag p) m) (Num p :: vs)), Called (method (tag p) m) (Num p :: vs) :: h)). Proof. reflexivity. Qed.
Lemma u_index : forall d n e, place (DIndex d n e) = (do l <- place d; do i <- eval e; do i <- fail (index inxchk i n); ret (fst l, i :: snd l)). Proof. reflexivity. Qed.
Lemma u_deref : forall e, place (DDeref e) = (do p <- eval e; do p <- fail (object p); ret (Object p, [])). Proof. reflexivity. Qed.
Lemma u_elem : forall e i, place (DElem e i) = (do p <- eval e; do p <- fail (object p); do i <- eval i; do i <- fail (index inxchk i (len p)); ret (Object p, [i])). Proof. reflexivity. Qed.
Lemma u_val : forall e a, arguments (AVal e a) = (do v <- eval e; do vs <- arguments a; ret (Num v :: vs)). Proof. reflexivity. Qed.
Lemma u_var : forall d a, arguments (AVar d a) = (do l <- place d; do vs <- arguments a; ret (Ref l :: vs)). Proof. reflexivity. Qed.
Lemma u_rec : forall e a, arguments (ARec e a) = (do p <- eval e; do p <- fail (object p); do vs <- arguments a; ret (Ref (Object p, []) :: Num (tag p) :: vs)). Proof. reflexivity. Qed.
Lemma u_open : forall e a, arguments (AOpen e a) = (do p <- eval e; do p <- fail (object p); do vs <- arguments a; ret (Ref (Object p, []) :: Num (len p) :: vs)). Proof. reflexivity. Qed.
Lemma c_load : forall l, cev (CLoad l) = (do p <- clv l; fun h => (Ok (mem h p), h)). Proof. reflexivity. Qed.
Lemma c_call : forall f a, cev (CCall f a) = (do f <- cev f; do vs <- cargv a; fun h => (Ok (result h f vs), Called f vs :: h)). Proof. reflexivity. Qed.
Lemma c_index : forall l c, clv (LIndex l c) = (do p <- clv l; do i <- cev c; ret (fst p, i :: snd p)). Proof. reflexivity. Qed.
Lemma c_star : forall c, clv (LStar c) = (do p <- cev c; do p <- fail (object_c p); ret (Object p, [])). Proof. reflexivity. Qed.
Lemma c_val : forall c a, cargv (CVal c a) = (do v <- cev c; do vs <- cargv a; ret (Num v :: vs)). Proof. reflexivity. Qed.
Lemma c_ref : forall l a, cargv (CRef l a) = (do p <- clv l; do vs <- cargv a; ret (Ref p :: vs)). Proof. reflexivity. Qed.
Lemma g_load : forall d, gen (ELoad d) = CLoad (gen_d d). Proof. reflexivity. Qed.
Lemma g_call : forall f a, gen (ECall f a) = CCall (CInt f) (gen_a a). Proof. reflexivity. Qed.
Lemma g_send : forall m e a, gen (ESend m e a) = CCall (CMethod (CTag (gen e)) m) (CVal (gen e) (gen_a a)). Proof. reflexivity. Qed.
Lemma g_index : forall d n e, gen_d (DIndex d n e) = LIndex (gen_d d) (index_c inxchk false e (gen e) (CInt n)). Proof. reflexivity. Qed.
Lemma g_deref : forall e, gen_d (DDeref e) = LStar (gen e). Proof. reflexivity. Qed.
Lemma g_elem : forall e i, gen_d (DElem e i) = LIndex (LStar (gen e)) (index_c inxchk true i (gen i) (CLen (gen e))). Proof. reflexivity. Qed.
Lemma g_val : forall e a, gen_a (AVal e a) = CVal (gen e) (gen_a a). Proof. reflexivity. Qed.
Lemma g_var : forall d a, gen_a (AVar d a) = CRef (gen_d d) (gen_a a). Proof. reflexivity. Qed.
Lemma g_rec : forall e a, gen_a (ARec e a) = CRef (LStar (gen e)) (CVal (CTag (gen e)) (gen_a a)). Proof. reflexivity. Qed.
Lemma g_open : forall e a, gen_a (AOpen e a) = CRef (LStar (gen e)) (CVal (CLen (gen e)) (gen_a a)). Proof. reflexivity. Qed.
Ltac eqs := rewrite ?g_load, ?g_call, ?g_send, ?g_index, ?g_deref, ?g_elem, ?g_val, ?g_var, ?g_rec, ?g_open, ?u_load, ?u_call, ?u_send, ?u_index, ?u_deref, ?u_elem, ?u_val, ?u_var, ?u_rec, ?u_open, ?c_load, ?c_call, ?c_index, ?c_star, ?c_val, ?c_ref.

Tactic Notation "start" constr(R) constr(h) ident(x) ident(h1) ident(E) ident(Q) := let r := fresh "r" in
  match type of R with refines ?m ?m' =>
    destruct (m h) as [r h1] eqn:E; pose proof (R h) as Q; rewrite E in Q;
    destruct r as [x|?| |]; [destruct Q as [[? Q]|Q]; [discriminate Q|] | destruct Q as [[? Q]|Q]; [discriminate Q|] | clear Q | destruct Q as [[? Q]|Q]; [discriminate Q|]] end.
Ltac run := repeat (eqs; unfold bnd, ret, fail in *; cbn [OnceSpec.eval OnceSpec.place OnceSpec.arguments OnceModel.cev OnceModel.clv OnceModel.cargv fst snd] in *;
  repeat match goal with H : ?m ?h = (_, _) |- context [?m ?h] => rewrite H end).
Ltac runs := repeat (run; repeat match goal with H : object_c ?p = _ |- context [object_c ?p] => rewrite H | H : object ?p = _ |- context [object ?p] => rewrite H end).
Ltac ub := left; eexists; run; reflexivity.
Ltac same := right; run; reflexivity.

Lemma refines_bnd : forall A B (m m' : M A) (k k' : A -> M B), refines m m' -> (forall a, refines (k a) (k' a)) -> refines (bnd m k) (bnd m' k').
Proof.
  intros A B m m' k k' R K h. start R h a h1 E Q; unfold bnd; rewrite ?E, ?Q; [apply K|right; reflexivity|left; eexists; reflexivity|right; reflexivity].
Qed.
Lemma refines_refl : forall A (m : M A), refines m m. Proof. intros A m h. right. reflexivity. Qed.
Lemma refines_fail : forall A (a b : res A), (a = UB \/ b = a) -> refines (fail a) (fail b).
Proof. intros A a b [->| ->] h; [left; eexists; reflexivity|right; reflexivity]. Qed.

Lemma quiet_at : forall e h r h1, calls e = false -> eval e h = (r, h1) -> h1 = h.
Proof. intros e h r h1 C E. pose proof (proj1 quiet e C h) as Q. rewrite E in Q. exact Q. Qed.

Lemma EUn_ok : forall o e, refines (eval e) (cev (gen e)) -> refines (eval (EUn o e)) (cev (gen (EUn o e))).
Proof.
  intros o e R h. cbn [OnceModel.gen]. rewrite (proj1 calls_eq). 
  assert (ST : forall r h1, eval e h = (r, h1) -> cev (gen e) h = (r, h1) -> match r with Ok _ => False | _ => True end -> cev (unary_c ranchk o (calls e) (gen e)) h = eval (EUn o e) h).
  { intros r h1 E1 E2 N. destruct r; try contradiction; destruct o; cbn [unary_c]; repeat match goal with |- context [if ?b then _ else _] => destruct b end; unfold ABS_, SHORTF_, SHORT_, CHRF_, CHR_, R_; run; reflexivity. }
  start R h z h1 E Q; [|right; eapply ST; eauto; exact I|ub|right; eapply ST; eauto; exact I]. clear ST.
  destruct (calls e) eqn:C; [|pose proof (quiet_at e h _ _ C E); subst h1]; cbn [OnceSpec.eval]; unfold bnd at 1 2; rewrite E; unfold fail.
  - destruct o as [| | | | |s| |s]; cbn [unary_c unary]; unfold SHORTF_, CHRF_.
    + same.
    + right. run. cbn [call_rt]. rewrite Z.geb_leb. replace (if 0 <=? z then z else - z) with (Z.abs z); [reflexivity|destruct (Z.leb_spec 0 z); lia].
    + same.
    + right. run. cbn [c_un]. rewrite land_1. reflexivity.
    + same.
    + unfold short. destruct ((0 <? s) && (s <=? 32) && (- 2 ^ 63 <=? z) && (z <? 2 ^ 63)) eqn:W; [|left; eexists; reflexivity]. destruct (short_test s z) as (T1 & T2 & T3); [lia|lia|].
      destruct ranchk; [|destruct ((- 2 ^ (s - 1) <=? z) && (z <? 2 ^ (s - 1))) eqn:I; [same|left; eexists; reflexivity]].
      right. run. cbn [c_bin call_rt negb]. rewrite T2, Z.geb_leb, Z.leb_antisym, T1. destruct ((- 2 ^ (s - 1) <=? z) && (z <? 2 ^ (s - 1))); cbn [negb]; [|reflexivity]. rewrite Z.add_simpl_r. reflexivity.
    + unfold chr. destruct (size_t z) eqn:W; [|left; eexists; reflexivity]. destruct ranchk.
      * right. run. assert (W2 : size_t z && size_t 256 = true) by (rewrite W; reflexivity). rewrite (proj2 (XF_ok z 256 W2)). cbn [negb]. destruct (z <? 256); reflexivity.
      * destruct (z <? 256) eqn:L; [|left; eexists; reflexivity]. right. run. cbn [c_un negb]. unfold size_t in W. rewrite wrap_u_small by (change (2 ^ 8) with 256; lia). reflexivity.
    + destruct (word s && (0 <=? z) && (z <? s)) eqn:W; [|left; eexists; reflexivity]. right. run. cbn [c_un need]. replace ((0 <=? z) && (z <? s)) with true by lia. rewrite Z.shiftl_mul_pow2 by lia. rewrite Z.mul_1_l. reflexivity.
  - destruct o as [| | | | |s| |s]; cbn [unary_c unary]; unfold ABS_, SHORT_, CHR_, R_.
    + same.
    + right. run. cbn [c_bin]. rewrite truth_0. destruct (Z.ltb_spec z 0); cbn [negb]; run; cbn [c_un]; [rewrite Z.abs_neq by lia|rewrite Z.abs_eq by lia]; reflexivity.
    + same.
    + right. run. cbn [c_un]. rewrite land_1. reflexivity.
    + same.
    + unfold short. destruct ((0 <? s) && (s <=? 32) && (- 2 ^ 63 <=? z) && (z <? 2 ^ 63)) eqn:W; [|left; eexists; reflexivity]. destruct (short_test s z) as (T1 & T2 & T3); [lia|lia|].
      destruct ranchk; [|destruct ((- 2 ^ (s - 1) <=? z) && (z <? 2 ^ (s - 1))) eqn:I; [same|left; eexists; reflexivity]].
      right. run. cbn [c_bin negb]. rewrite T1, truth_0. destruct ((- 2 ^ (s - 1) <=? z) && (z <? 2 ^ (s - 1))); cbn [negb]; run; reflexivity.
    + unfold chr. destruct (size_t z) eqn:W; [|left; eexists; reflexivity]. destruct ranchk.
      * right. run. cbn [c_bin negb]. rewrite truth_0. destruct (z <? 256); cbn [negb]; run; reflexivity.
      * destruct (z <? 256) eqn:L; [|left; eexists; reflexivity]. right. run. cbn [c_un negb]. unfold size_t in W. rewrite wrap_u_small by (change (2 ^ 8) with 256; lia). reflexivity.
    + destruct (word s && (0 <=? z) && (z <? s)) eqn:W; [|left; eexists; reflexivity]. right. run. cbn [c_un need]. replace ((0 <=? z) && (z <? s)) with true by lia. rewrite Z.shiftl_mul_pow2 by lia. rewrite Z.mul_1_l. reflexivity.
Qed.

(** Binary operators.  The operands are evaluated at most once where there are calls. *)
Lemma once_each : forall o e1 e2 (c : cexpr) (op : Z -> Z -> res Z), refines (eval e1) (cev (gen e1)) -> refines (eval e2) (cev (gen e2)) ->
  (forall h, cev c h = bnd (cev (gen e1)) (fun x => bnd (cev (gen e2)) (fun y => fail (op x y))) h) -> (forall x y, binary o x y = UB \/ op x y = binary o x y) ->
  refines (eval (EBin o e1 e2)) (cev c).
Proof.
  intros o e1 e2 c op R1 R2 EC EQ h. rewrite EC. revert h. cbn [OnceSpec.eval]. apply refines_bnd; [exact R1|]. intro x. apply refines_bnd; [exact R2|]. intro y. apply refines_fail, EQ.
Qed.
(** Both operands without calls. *)
Lemma no_calls : forall o e1 e2 (c : cexpr), refines (eval e1) (cev (gen e1)) -> refines (eval e2) (cev (gen e2)) -> calls e1 = false -> calls e2 = false ->
  (forall h r, cev (gen e1) h = (r, h) -> match r with Ok x => forall r', cev (gen e2) h = (r', h) -> match r' with Ok y => binary o x y = UB \/ cev c h = (binary o x y, h) | UB => True | _ => cev c h = (match r' with Ok v => Ok v | Trap k => Trap k | UB => UB | Fuel => Fuel end, h) end
     | UB => True | _ => cev c h = (match r with Ok v => Ok v | Trap k => Trap k | UB => UB | Fuel => Fuel end, h) end) ->
  refines (eval (EBin o e1 e2)) (cev c).
Proof.
  intros o e1 e2 c R1 R2 C1 C2 H h. cbn [OnceSpec.eval]. start R1 h x h1 E1 Q1; pose proof (quiet_at e1 h _ _ C1 E1); subst h1; specialize (H h _ ltac:(first [exact Q1|reflexivity])) || idtac.
  - cbv beta iota in H. start R2 h y h2 E2 Q2; pose proof (quiet_at e2 h _ _ C2 E2); subst h2; try (specialize (H _ Q2); cbv beta iota in H).
    + assert ((do x <- eval e1; do y <- eval e2; fail (binary o x y)) h = (binary o x y, h)) as -> by (run; reflexivity). destruct H as [H|H]; [left; exists h; rewrite H; reflexivity|right; exact H].
    + right. rewrite H. run. reflexivity.
    + ub.
    + right. rewrite H. run. reflexivity.
  - cbv beta iota in H. right. rewrite H. run. reflexivity.
  - ub.
  - cbv beta iota in H. right. rewrite H. run. reflexivity.
Qed.
Lemma once_left : forall o e1 n (c : cexpr) (op : Z -> res Z), refines (eval e1) (cev (gen e1)) ->
  (forall h, cev c h = bnd (cev (gen e1)) (fun x => fail (op x)) h) -> (forall x, binary o x n = UB \/ op x = binary o x n) -> refines (eval (EBin o e1 (EInt n))) (cev c).
Proof.
  intros o e1 n c op R1 EC EQ h. rewrite EC. revert h. cbn [OnceSpec.eval]. apply refines_bnd; [exact R1|]. intro x. change (bnd (ret n) (fun y => fail (binary o x y))) with (fail (binary o x n)). apply refines_fail, EQ.
Qed.
(** The count of a shift is evaluated first, and again after the operand. *)
Lemma count_first : forall o e1 e2 (c : cexpr) (opl opr : Z -> Z -> res Z), refines (eval e1) (cev (gen e1)) -> refines (eval e2) (cev (gen e2)) ->
  plain ranchk inxchk typchk result mem tag len extends method e2 -> calls e1 = false \/ steady e2 ->
  (forall h, cev c h = bnd (cev (gen e2)) (fun n => if truth (n >=? 0) =? 0 then bnd (cev (gen e1)) (fun x => bnd (cev (gen e2)) (fun n => fail (opr x (- n)))) else bnd (cev (gen e1)) (fun x => bnd (cev (gen e2)) (fun n => fail (opl x n)))) h) ->
  (forall x n, 0 <= n -> binary o x n = UB \/ opl x n = binary o x n) -> (forall x n, n < 0 -> binary o x n = UB \/ opr x (- n) = binary o x n) ->
  refines (eval (EBin o e1 e2)) (cev c).
Proof.
  intros o e1 e2 c opl opr R1 R2 P S EC HL HR h. rewrite EC. destruct (P h) as (n & En). assert (Qn : forall h', eval e2 h' = (Ok n, h') -> cev (gen e2) h' = (Ok n, h')).
  { intros h' E. destruct (R2 h') as [[k K]|K]; [rewrite E in K; discriminate|rewrite K; exact E]. }
  pose proof (Qn h En) as Q2. cbn [OnceSpec.eval]. start R1 h x h1 E1 Q1.
  - assert (E2 : eval e2 h1 = (Ok n, h1)).
    { destruct S as [C|S]; [rewrite (quiet_at e1 h _ _ C E1); exact En|]. destruct (P h1) as (n' & En'). specialize (S h h1). rewrite En, En' in S. cbn in S. injection S as <-. exact En'. }
    pose proof (Qn h1 E2) as Q3. assert ((do x <- eval e1; do y <- eval e2; fail (binary o x y)) h = (binary o x n, h1)) as -> by (run; reflexivity).
    assert (forall k k', bnd (cev (gen e2)) (fun n => if truth (n >=? 0) =? 0 then k n else k' n) h = (if truth (n >=? 0) =? 0 then k n else k' n) h) as -> by (intros; unfold bnd; rewrite Q2; reflexivity).
    rewrite truth_0. destruct (Z.geb_spec n 0); cbn [negb].
    + destruct (HL x n) as [U|U]; [lia|left; exists h1; rewrite U; reflexivity|right; run; rewrite U; reflexivity].
    + destruct (HR x n) as [U|U]; [lia|left; exists h1; rewrite U; reflexivity|right; run; rewrite U; reflexivity].
  - right. unfold bnd. rewrite Q2, E1. destruct (truth (n >=? 0) =? 0); rewrite Q1; reflexivity.
  - ub.
  - right. unfold bnd. rewrite Q2, E1. destruct (truth (n >=? 0) =? 0); rewrite Q1; reflexivity.
Qed.
Lemma ash_values : forall x n, (0 <= n -> binary Ash x n = UB \/ c_bin BShl x n = binary Ash x n) /\ (n < 0 -> binary Ash x n = UB \/ c_bin BShr x (- n) = binary Ash x n) /\ (binary Ash x n = UB \/ call_rt ASHF x n = binary Ash x n).
Proof.
  intros x n. cbn [binary c_bin call_rt]. unfold need, ash. destruct ((-64 <? n) && (n <? 64)) eqn:W; [|split; [|split]; intros; auto].
  rewrite Z.geb_leb. destruct (Z.leb_spec 0 n).
  - split; [|split]; [intros _; right|lia|right]; [rewrite (proj2 (Z.ltb_lt n 64)) by lia; cbn [andb]|]; rewrite Z.shiftl_mul_pow2 by lia; reflexivity.
  - split; [|split]; [lia|intros _; right|right]; [replace ((0 <=? - n) && (- n <? 64)) with true by lia|]; rewrite Z.shiftr_div_pow2 by lia; reflexivity.
Qed.
Definition lshl (s x n : Z) : res Z := let* v := c_bin BShl (wrap_u s x) n in Ok (wrap_s s v).
Definition lshr (s x n : Z) : res Z := let* v := c_bin BShr (wrap_u s x) n in Ok (wrap_s s v).
Lemma lsh_values : forall s x n, (0 <= n -> binary (Lsh s) x n = UB \/ lshl s x n = binary (Lsh s) x n) /\ (n < 0 -> binary (Lsh s) x n = UB \/ lshr s x (- n) = binary (Lsh s) x n).
Proof.
  intros s x n. unfold lshl, lshr. cbn [binary c_bin]. unfold need, lsh. destruct (word s && (- s <? n) && (n <? s)) eqn:W; [|split; intros; auto]. unfold word in W. destruct (Z.leb_spec 0 n).
  - split; [intros _; right|lia]. rewrite (proj2 (Z.ltb_lt n 64)) by lia; cbn [andb]. cbn [bind]. rewrite lshl_ok by lia. reflexivity.
  - split; [lia|intros _; right]. replace ((0 <=? - n) && (- n <? 64)) with true by lia. cbn [bind]. rewrite Z.shiftr_div_pow2 by lia. reflexivity.
Qed.
Definition rotl (s x n : Z) : res Z := let* v := c_bin BShl (wrap_u s x) n in let* w := c_bin BShr (wrap_u s x) (s - n) in Ok (wrap_s s (Z.lor v w)).
Definition rotr (s x n : Z) : res Z := let* v := c_bin BShr (wrap_u s x) n in let* w := c_bin BShl (wrap_u s x) (s - n) in Ok (wrap_s s (Z.lor v w)).
Lemma rot_values : forall s x n, (0 <= n -> binary (Rot s) x n = UB \/ rotl s x n = binary (Rot s) x n) /\ (n < 0 -> binary (Rot s) x n = UB \/ rotr s x (- n) = binary (Rot s) x n).
Proof.
  intros s x n. unfold rotl, rotr. cbn [binary c_bin]. unfold need, rot. destruct (word s && (- s <? n) && (n <? s) && negb (n =? 0)) eqn:W; [|split; intros; auto]. unfold word in W. destruct (Z.leb_spec 0 n).
  - split; [intros _; right|lia]. rewrite (proj2 (Z.ltb_lt n 64)) by lia; cbn [andb]. replace ((0 <=? s - n) && (s - n <? 64)) with true by lia. cbn [bind]. rewrite (Z.mod_small n) by lia. reflexivity.
  - split; [lia|intros _; right]. replace ((0 <=? - n) && (- n <? 64)) with true by lia. replace ((0 <=? s - - n) && (s - - n <? 64)) with true by lia. cbn [bind].
    replace (n mod s) with (s - - n) by (rewrite <- (Z_mod_plus_full n 1), Z.mod_small; lia). replace (s - (s - - n)) with (- n) by lia. rewrite Z.lor_comm. reflexivity.
Qed.
Lemma div_values : forall x y, (binary Div x y = UB \/ call_rt DIVF x y = binary Div x y) /\ (binary Mod x y = UB \/ call_rt MODF x y = binary Mod x y) /\
  (0 < x -> 0 < y -> c_bin BQuot x y = binary Div x y /\ c_bin BRem x y = binary Mod x y).
Proof.
  intros x y. cbn [binary call_rt c_bin]. unfold need. destruct (Z.eqb_spec y 0); cbn [negb]; [split; [|split]; auto; lia|]. split; [|split]; auto. intros X Y. rewrite Z.quot_div_nonneg, Z.rem_mod_nonneg by lia. split; reflexivity.
Qed.

Lemma EBin_ok : forall o e1 e2, refines (eval e1) (cev (gen e1)) -> refines (eval e2) (cev (gen e2)) -> once (EBin o e1 e2) -> refines (eval (EBin o e1 e2)) (cev (gen (EBin o e1 e2))).
Proof.
  intros o e1 e2 R1 R2 O. cbn [OnceModel.gen]. rewrite (proj1 calls_eq e1), (proj1 calls_eq e2). cbn [OnceSpec.once] in O. destruct O as (_ & _ & O). destruct o as [| | | | | |s|s|s|s|r]; cbn [binary_c].
  - apply once_each with (op := c_bin BAdd); auto.
  - apply once_each with (op := c_bin BSub); auto.
  - apply once_each with (op := c_bin BMul); auto.
  - destruct (calls e1 || calls e2) eqn:C; [apply once_each with (op := call_rt DIVF); [exact R1|exact R2|reflexivity|intros x y; apply div_values]|]. apply orb_false_iff in C. destruct C as [C1 C2].
    apply no_calls; auto. unfold DIV_. intros h [x|k| |] Q1; [intros [y|k| |] Q2| | |]; auto; try (run; reflexivity).
    + destruct (div_values x y) as (D1 & _ & D2). destruct D1 as [D1|D1]; [left; exact D1|right]. run. cbn [c_bin]. rewrite truth_0, !Z.gtb_ltb. destruct (Z.ltb_spec 0 x); cbn [negb]; run; [|change (0 =? 0) with true; cbv iota; run; rewrite D1; reflexivity].
      cbn [c_bin]. rewrite !truth_0, Z.gtb_ltb, negb_involutive. destruct (Z.ltb_spec 0 y); cbn [negb truth]; run; [destruct D2 as [D2 _]; auto; cbn [c_bin] in D2; rewrite D2; reflexivity|rewrite D1; reflexivity].
    + run. cbn [c_bin]. rewrite truth_0. destruct (x >? 0); cbn [negb]; run; [reflexivity|]. change (0 =? 0) with true. cbv iota. run. reflexivity.
    + run. cbn [c_bin]. rewrite truth_0. destruct (x >? 0); cbn [negb]; run; [reflexivity|]. change (0 =? 0) with true. cbv iota. run. reflexivity.
  - destruct (calls e1 || calls e2) eqn:C; [apply once_each with (op := call_rt MODF); [exact R1|exact R2|reflexivity|intros x y; apply div_values]|]. apply orb_false_iff in C. destruct C as [C1 C2].
    apply no_calls; auto. unfold MOD_. intros h [x|k| |] Q1; [intros [y|k| |] Q2| | |]; auto; try (run; reflexivity).
    + destruct (div_values x y) as (_ & D1 & D2). destruct D1 as [D1|D1]; [left; exact D1|right]. run. cbn [c_bin]. rewrite truth_0, !Z.gtb_ltb. destruct (Z.ltb_spec 0 x); cbn [negb]; run; [|change (0 =? 0) with true; cbv iota; run; rewrite D1; reflexivity].
      cbn [c_bin]. rewrite !truth_0, Z.gtb_ltb, negb_involutive. destruct (Z.ltb_spec 0 y); cbn [negb truth]; run; [destruct D2 as [_ D2]; auto; cbn [c_bin] in D2; rewrite D2; reflexivity|rewrite D1; reflexivity].
    + run. cbn [c_bin]. rewrite truth_0. destruct (x >? 0); cbn [negb]; run; [reflexivity|]. change (0 =? 0) with true. cbv iota. run. reflexivity.
    + run. cbn [c_bin]. rewrite truth_0. destruct (x >? 0); cbn [negb]; run; [reflexivity|]. change (0 =? 0) with true. cbv iota. run. reflexivity.
  - destruct (number e2) eqn:N.
    + destruct e2 as [n| | | | | | | | | |]; try discriminate. cbn [literal OnceModel.gen]. rewrite Z.geb_leb. destruct (Z.leb_spec 0 n).
      * apply once_left with (op := fun x => c_bin BShl x n); auto. intro x. apply (ash_values x n). lia.
      * apply once_left with (op := fun x => c_bin BShr x (- n)); auto. intro x. apply (ash_values x n). lia.
    + assert (literal e2 = None) as -> by (destruct e2; auto; discriminate). destruct (calls e2) eqn:C.
      * apply once_each with (op := call_rt ASHF); [exact R1|exact R2|reflexivity|intros x y; apply ash_values].
      * destruct O as [O|[O|[P S]]]; [discriminate|discriminate|]. apply count_first with (opl := c_bin BShl) (opr := c_bin BShr); auto.
        -- intro h. unfold ASH_, ASHL_, ASHR_. cbn [OnceModel.cev]. unfold bnd, ret, fail. cbn [OnceModel.cev c_bin c_un].
           destruct (cev (gen e2) h) as [[n| | |] h1]; try reflexivity. destruct (truth (n >=? 0) =? 0); [|reflexivity]. destruct (cev (gen e1) h1) as [[x| | |] h2]; try reflexivity. destruct (cev (gen e2) h2) as [[n'| | |] h3]; reflexivity.
        -- intros x n. apply ash_values.
        -- intros x n. apply ash_values.
  - destruct (number e2) eqn:N.
    + destruct e2 as [n| | | | | | | | | |]; try discriminate. cbn [literal OnceModel.gen]. rewrite Z.geb_leb. destruct (Z.leb_spec 0 n).
      * apply once_left with (op := fun x => lshl s x n); auto; [|intro x; apply lsh_values; lia]. intro h. unfold LSHL_, lshl. run. destruct (cev (gen e1) h) as [[x| | |] h1]; auto. cbn [c_bin]. destruct ((0 <=? n) && (n <? 64)); reflexivity.
      * apply once_left with (op := fun x => lshr s x (- n)); auto; [|intro x; apply lsh_values; lia]. intro h. unfold LSHR_, lshr. run. destruct (cev (gen e1) h) as [[x| | |] h1]; auto. cbn [c_bin]. destruct ((0 <=? - n) && (- n <? 64)); reflexivity.
    + assert (literal e2 = None) as -> by (destruct e2; auto; discriminate). destruct O as [O|[P S]]; [discriminate|]. apply count_first with (opl := lshl s) (opr := lshr s); auto.
      * intro h. unfold LSH_, LSHL_, LSHR_, lshl, lshr. run. cbn [c_bin c_un].
        destruct (cev (gen e2) h) as [[n| | |] h1]; try reflexivity. destruct (truth (n >=? 0) =? 0); destruct (cev (gen e1) h1) as [[x| | |] h2]; try reflexivity; destruct (cev (gen e2) h2) as [[n'| | |] h3]; try reflexivity.
        -- destruct ((0 <=? - n') && (- n' <? 64)); reflexivity.
        -- destruct ((0 <=? n') && (n' <? 64)); reflexivity.
      * intros x n. apply lsh_values.
      * intros x n. apply lsh_values.
  - destruct O as [C1 O]. destruct (number e2) eqn:N.
    + destruct e2 as [n| | | | | | | | | |]; try discriminate. cbn [literal OnceModel.gen]. rewrite Z.geb_leb. destruct (Z.leb_spec 0 n); (apply no_calls; auto; intros h [x|k| |] Q1; auto; [|unfold ROTL_, ROTR_; run; reflexivity|unfold ROTL_, ROTR_; run; reflexivity]; intros r' E2; cbn in E2; injection E2 as <-).
      * destruct (proj1 (rot_values s x n) ltac:(lia)) as [U|U]; [left; exact U|right]. rewrite <- U. unfold ROTL_, rotl. run. cbn [c_bin]. destruct ((0 <=? n) && (n <? 64)); [|reflexivity]. run. cbn [c_bin]. destruct ((0 <=? s - n) && (s - n <? 64)); reflexivity.
      * destruct (proj2 (rot_values s x n) ltac:(lia)) as [U|U]; [left; exact U|right]. rewrite <- U. unfold ROTR_, rotr. run. cbn [c_bin]. destruct ((0 <=? - n) && (- n <? 64)); [|reflexivity]. run. cbn [c_bin]. destruct ((0 <=? s - - n) && (s - - n <? 64)); reflexivity.
    + assert (literal e2 = None) as -> by (destruct e2; auto; discriminate). destruct O as [O|P]; [discriminate|]. intro h. destruct (P h) as (n & En). destruct (R2 h) as [[k K]|K]; [rewrite En in K; discriminate|]. rewrite En in K.
      start R1 h x h1 E1 Q1; try (pose proof (quiet_at e1 h _ _ C1 E1); subst h1).
      * assert (eval (EBin (Rot s) e1 e2) h = (binary (Rot s) x n, h)) as -> by (run; reflexivity). unfold ROT_. run. cbn [c_bin]. rewrite truth_0. destruct (Z.geb_spec n 0); cbn [negb].
        -- destruct (proj1 (rot_values s x n) ltac:(lia)) as [U|U]; [left; exists h; rewrite U; reflexivity|right]. rewrite <- U. unfold ROTL_, rotl. run. cbn [c_bin]. destruct ((0 <=? n) && (n <? 64)); [|reflexivity]. run. cbn [c_bin]. destruct ((0 <=? s - n) && (s - n <? 64)); reflexivity.
        -- destruct (proj2 (rot_values s x n) ltac:(lia)) as [U|U]; [left; exists h; rewrite U; reflexivity|right]. rewrite <- U. unfold ROTR_, rotr. run. cbn [c_bin c_un]. destruct ((0 <=? - n) && (- n <? 64)); [|reflexivity]. run. cbn [c_bin c_un]. destruct ((0 <=? s - - n) && (s - - n <? 64)); reflexivity.
      * right. unfold ROT_. run. cbn [c_bin]. destruct (truth (n >=? 0) =? 0); unfold ROTL_, ROTR_; run; reflexivity.
      * ub.
      * right. unfold ROT_. run. cbn [c_bin]. destruct (truth (n >=? 0) =? 0); unfold ROTL_, ROTR_; run; reflexivity.
  - destruct O as [C1 P]. intro h. destruct (P h) as (w & Ew). destruct (R2 h) as [[k K]|K]; [rewrite Ew in K; discriminate|]. rewrite Ew in K.
    start R1 h x h1 E1 Q1; try (pose proof (quiet_at e1 h _ _ C1 E1); subst h1).
    + assert (eval (EBin (In s) e1 e2) h = (binary (In s) x w, h)) as -> by (run; reflexivity). cbn [binary]. unfold element, need. destruct (word s && (- 2 ^ 31 <=? x) && (x <? 2 ^ 31)) eqn:W; [|left; exists h; reflexivity]. right. unfold word in W.
      unfold IN_. run. cbn [c_bin]. rewrite truth_0. unfold wrap_u. destruct (Z.ltb_spec x 0) as [L|L].
      * replace (x mod 2 ^ 32) with (x + 2 ^ 32) by (rewrite <- (Z_mod_plus_full x 1), Z.mod_small; lia). replace (x + 2 ^ 32 <? s) with false by lia. replace (0 <=? x) with false by lia. reflexivity.
      * rewrite (Z.mod_small x (2 ^ 32)) by lia. replace (0 <=? x) with true by lia. destruct (Z.ltb_spec x s); cbn [negb andb]; [|reflexivity]. run. cbn [c_bin]. replace ((0 <=? x) && (x <? 64)) with true by lia. run. cbn [c_un]. rewrite shr_bit by lia.
        rewrite truth_0, negb_involutive, Z.mod_pow2_bits_low by lia. reflexivity.
    + right. unfold IN_. run. reflexivity.
    + ub.
    + right. unfold IN_. run. reflexivity.
  - apply once_each with (op := c_bin (BRng s)); auto. intros x y. cbn [binary c_bin]. unfold need. destruct (word s && (0 <=? x) && (x <? s) && (0 <=? y) && (y <? s)) eqn:W; [|left; reflexivity]. right.
    replace ((0 <=? x) && (x <? s) && (0 <=? s - 1 - y) && (s - 1 - y <? s)) with true by lia. rewrite rng_ok by lia. reflexivity.
  - apply once_each with (op := c_bin (BRel r)); auto. intros x y. right. cbn [binary c_bin]. destruct r; cbn [related]; rewrite ?Z.gtb_ltb, ?Z.geb_leb; reflexivity.
Qed.

Lemma object_eq : forall p, object_c p = object p. Proof. intro p. unfold object_c, object, need. destruct (p =? 0); reflexivity. Qed.

Lemma index_ok : forall open e n c, refines (eval e) (cev (gen e)) -> (forall h, cev c h = (Ok n, h)) -> match e with EInt k => open = true /\ k <> 0 \/ 0 <= k < n | _ => True end ->
  refines (do i <- eval e; fail (index inxchk i n)) (cev (index_c inxchk open e (gen e) c)).
Proof.
  intros open e n c R EC K h. unfold index_c. destruct (negb inxchk || match literal e with Some v => (v =? 0) || negb open | None => false end) eqn:B.
  - start R h i h1 E Q; [|right; run; reflexivity|ub|right; run; reflexivity]. assert ((do i <- eval e; fail (index inxchk i n)) h = (index inxchk i n, h1)) as -> by (run; reflexivity). rewrite Q. unfold index.
    destruct (size_t i && size_t n) eqn:W; [|left; eexists; reflexivity]. cbn [negb]. destruct (i <? n) eqn:L; [right; reflexivity|]. destruct inxchk; [|left; eexists; reflexivity]. exfalso. cbn [negb orb] in B. destruct e; cbn [literal] in B; try discriminate.
    cbn in E. injection E as -> _. destruct K as [[-> K]|K]; [|lia]. cbn [negb] in B. lia.
  - rewrite (proj1 calls_eq e). assert (inxchk = true) as IN by (destruct inxchk; [reflexivity|discriminate]). destruct (calls e) eqn:C.
    + start R h i h1 E Q; [|right; run; reflexivity|ub|right; run; reflexivity]. assert ((do i <- eval e; fail (index inxchk i n)) h = (index inxchk i n, h1)) as -> by (run; reflexivity).
      assert (cev (CFun XF (gen e) c) h = (call_rt XF i n, h1)) as ->. { pose proof (EC h1). run. reflexivity. }
      unfold index. rewrite IN. destruct (size_t i && size_t n) eqn:W; [|left; eexists; reflexivity]. right. rewrite (proj1 (XF_ok i n W)). reflexivity.
    + start R h i h1 E Q; pose proof (quiet_at e h _ _ C E); subst h1; [|right; unfold X_; run; reflexivity|ub|right; unfold X_; run; reflexivity]. assert ((do i <- eval e; fail (index inxchk i n)) h = (index inxchk i n, h)) as -> by (run; reflexivity).
      pose proof (EC h) as Q2. assert (cev (X_ (gen e) c) h = (if i <? n then Ok i else Trap (-2), h)) as ->. { unfold X_. run. cbn [c_bin]. rewrite truth_0. destruct (i <? n); cbn [negb]; run; reflexivity. }
      unfold index. rewrite IN. destruct (size_t i && size_t n) eqn:W; [right; reflexivity|left; eexists; reflexivity].
Qed.

Hypothesis some_elements : forall p, 0 < len p.

Tactic Notation "pureR" constr(R) constr(C) constr(h) ident(x) ident(h1) ident(E) ident(Q) := start R h x h1 E Q; [pose proof (quiet_at _ h _ _ C E); subst h1|right; run; reflexivity|ub|right; run; reflexivity].
Lemma refined : (forall e, once e -> refines (eval e) (cev (gen e))) /\ (forall d, once_d d -> refines (place d) (clv (gen_d d))) /\ (forall a, once_a a -> refines (arguments a) (cargv (gen_a a))).
Proof.
  apply all_ind.
  - intros v _. apply refines_refl.
  - intros d IH O. rewrite u_load, g_load, c_load. apply refines_bnd; [exact (IH O)|intro; apply refines_refl].
  - intros f a IH O. intro h. destruct (refines_bnd _ _ _ _ (fun vs => fun h => (Ok (result h f vs), Called f vs :: h)) _ (IH O) (fun vs => refines_refl _ _) h) as [U|U]; [left; exact U|right; exact U].
  - intros m e IHe a IHa (O1 & O2 & C) h. specialize (IHe O1). specialize (IHa O2). eqs. pureR IHe C h p h1 E Q. pose proof (object_eq p) as OB. destruct (object p) as [p'|k| |] eqn:OP.
    + assert (p' = p) by (unfold object, need in OP; destruct (p =? 0); inversion OP; reflexivity). subst p'. assert (cev (CMethod (CTag (gen e)) m) h = (Ok (method (tag p) m), h)) as E1 by (run; rewrite OB; reflexivity).
      start IHa h vs h2 E2 Q2; [|right; runs; reflexivity|left; eexists; runs; reflexivity|right; runs; reflexivity]. right. runs. reflexivity.
    + unfold object, need in OP. destruct (p =? 0); discriminate.
    + left. eexists. run. rewrite OP. reflexivity.
    + unfold object, need in OP. destruct (p =? 0); discriminate.
  - intros o e IH O. apply EUn_ok, IH, O.
  - intros o e1 IH1 e2 IH2 O. apply EBin_ok; [apply IH1, O|apply IH2, O|exact O].
  - intros e1 IH1 e2 IH2 [O1 O2]. cbn [OnceSpec.eval OnceModel.gen OnceModel.cev]. apply refines_bnd; [exact (IH1 O1)|]. intro x. destruct (x =? 0); [apply refines_refl|]. apply refines_bnd; [exact (IH2 O2)|intro; apply refines_refl].
  - intros e1 IH1 e2 IH2 [O1 O2]. cbn [OnceSpec.eval OnceModel.gen OnceModel.cev]. apply refines_bnd; [exact (IH1 O1)|]. intro x. destruct (x =? 0); [|apply refines_refl]. apply refines_bnd; [exact (IH2 O2)|intro; apply refines_refl].
  - intros e IH t O h. specialize (IH O). cbn [OnceSpec.eval OnceModel.gen]. unfold ISP_. start IH h p h1 E Q; [|right; run; reflexivity|ub|right; run; reflexivity]. pose proof (object_eq p) as OB. right. run. rewrite OB. destruct (object p); run; reflexivity.
  - intros e IH t [O C] h. specialize (IH O). assert (TC : typchk = true \/ typchk = false) by (destruct typchk; auto).
    set (X := fun p => do p <- fail (object p); if extends (tag p) t then ret p else fail (Trap (-5))). change (eval (EGuard e t)) with (do p <- eval e; if typchk then X p else ret p). change (gen (EGuard e t)) with (if typchk then GUARDP_ (gen e) t else gen e).
    assert (U : forall b, (b = true -> (do p <- eval e; if b then X p else ret p) = (do p <- eval e; X p) /\ (if b then GUARDP_ (gen e) t else gen e) = GUARDP_ (gen e) t) /\ (b = false -> (do p <- eval e; if b then X p else ret p) = (do p <- eval e; ret p) /\ (if b then GUARDP_ (gen e) t else gen e) = gen e)) by (intros []; split; intros; try discriminate; split; reflexivity).
    destruct TC as [TC|TC].
    + destruct (proj1 (U typchk) TC) as [-> ->]. clear U. specialize (C TC). unfold GUARDP_, ISP_, X. pureR IH C h p h1 E Q. pose proof (object_eq p) as OB. destruct (object p) as [p'|k| |] eqn:OP; try (unfold object, need in OP; destruct (p =? 0); discriminate).
      * assert (p' = p) by (unfold object, need in OP; destruct (p =? 0); inversion OP; reflexivity). subst p'. right. runs. rewrite truth_0. destruct (extends (tag p) t); cbn [negb]; run; reflexivity.
      * left. eexists. runs. reflexivity.
    + destruct (proj2 (U typchk) TC) as [-> ->]. start IH h p h1 E Q; [|right; run; reflexivity|ub|right; run; reflexivity]. right. run. reflexivity.
  - intros e IH O h. specialize (IH O). cbn [OnceSpec.eval OnceModel.gen]. start IH h p h1 E Q; [|right; run; reflexivity|ub|right; run; reflexivity]. pose proof (object_eq p) as OB. right. run. rewrite OB. destruct (object p); run; reflexivity.
  - intros i _. apply refines_refl.
  - intros d IH k O. cbn [OnceSpec.place OnceModel.gen_d OnceModel.clv]. apply refines_bnd; [exact (IH O)|intro; apply refines_refl].
  - intros d IHd n e IHe (O1 & O2 & K). eqs. apply refines_bnd; [exact (IHd O1)|]. intros l h.
    assert (forall A B (m : M A) (f : A -> res B) (k : B -> M loc) h, bnd m (fun x => bnd (fail (f x)) k) h = bnd (bnd m (fun x => fail (f x))) k h) as ASSOC. { intros A B m f k h0. unfold bnd, fail. destruct (m h0) as [[x| | |] h1]; auto. }
    rewrite ASSOC. revert h. apply refines_bnd; [|intro; apply refines_refl]. apply index_ok; [exact (IHe O2)|reflexivity|]. destruct e; auto.
  - intros e IH O h. specialize (IH O). eqs. start IH h p h1 E Q; [|right; run; reflexivity|ub|right; run; reflexivity]. pose proof (object_eq p) as OB. right. run. rewrite OB. destruct (object p); run; reflexivity.
  - intros e IHe i IHi (O1 & O2 & C) h. specialize (IHe O1). specialize (IHi O2). rewrite g_elem.
    assert (ASSOC : forall A B (m : M A) (f : A -> res B) (k : B -> M loc) h, bnd m (fun x => bnd (fail (f x)) k) h = bnd (bnd m (fun x => fail (f x))) k h). { intros A B m f k h0. unfold bnd, fail. destruct (m h0) as [[x| | |] h1]; auto. }
    start IHe h p h1 E Q; [|right; run; reflexivity|ub|right; run; reflexivity]. pose proof (object_eq p) as OB. destruct (object p) as [p'|k| |] eqn:OP; try (unfold object, need in OP; destruct (p =? 0); discriminate).
    + assert (p' = p) by (unfold object, need in OP; destruct (p =? 0); inversion OP; reflexivity). subst p'.
      assert (S1 : place (DElem e i) h = bnd (do i <- eval i; fail (index inxchk i (len p))) (fun i => ret (Object p, [i])) h1). { rewrite <- ASSOC. rewrite u_elem. unfold bnd at 1. rewrite E. unfold bnd at 1, fail at 1. rewrite OP. reflexivity. }
      assert (S2 : clv (LIndex (LStar (gen e)) (index_c inxchk true i (gen i) (CLen (gen e)))) h = bnd (cev (index_c inxchk true i (gen i) (CLen (gen e)))) (fun i => ret (Object p, [i])) h1). { rewrite c_index, c_star. unfold bnd. rewrite Q. unfold fail. rewrite OB. reflexivity. }
      rewrite S1, S2. clear S1 S2. destruct (negb inxchk || match i with EInt 0 => true | _ => false end) eqn:PL.
      * assert (index_c inxchk true i (gen i) (CLen (gen e)) = gen i) as ->. { unfold index_c. destruct inxchk; [|reflexivity]. destruct i as [[| |]| | | | | | | | | |]; try discriminate. reflexivity. }
        destruct (refines_bnd _ _ (do i <- eval i; fail (index inxchk i (len p))) (cev (gen i)) (fun i => ret (Object p, [i])) (fun i => ret (Object p, [i]))) with (h := h1) as [U|U]; [|intro; apply refines_refl|left; exact U|right; exact U].
        intro h2. start IHi h2 x h3 E3 Q3; [|right; run; reflexivity|ub|right; run; reflexivity]. assert ((do i <- eval i; fail (index inxchk i (len p))) h2 = (index inxchk x (len p), h3)) as -> by (run; reflexivity). rewrite Q3. unfold index.
        destruct (size_t x && size_t (len p)); [|left; eexists; reflexivity]. cbn [negb]. destruct (x <? len p) eqn:L; [right; reflexivity|]. destruct inxchk; [|left; eexists; reflexivity].
        exfalso. destruct i as [[| |]| | | | | | | | | |]; try discriminate. cbn in E3. injection E3 as <- _. specialize (some_elements p). lia.
      * assert (IX : inxchk = true) by (destruct inxchk; [reflexivity|discriminate]). assert (NZ : i <> EInt 0) by (intros ->; destruct inxchk; discriminate). destruct (C IX NZ) as [Ce Si]. pose proof (quiet_at e h _ _ Ce E). subst h1.
        start IHi h x h2 Ei Qi.
        -- assert (E2 : calls i = true -> eval e h2 = (Ok p, h2)).
           { intros Ci. destruct Si as [Si|Si]; [congruence|]. specialize (Si h h2). rewrite E in Si. cbn [fst] in Si. pose proof (proj1 quiet e Ce h2) as Q2. destruct (eval e h2) as [r h3]. cbn in Si, Q2. subst. reflexivity. }
           assert (Q2 : calls i = true -> cev (gen e) h2 = (Ok p, h2)). { intros Ci. destruct (IHe h2) as [[k K]|K]; rewrite (E2 Ci) in K; [discriminate|exact K]. }
           assert (LH : bnd (do i <- eval i; fail (index inxchk i (len p))) (fun i => ret (Object p, [i])) h = bnd (fail (index inxchk x (len p))) (fun i => ret (Object p, [i])) h2). { unfold bnd at 1 2. rewrite Ei. reflexivity. }
           assert (RH : size_t x && size_t (len p) = true -> cev (index_c inxchk true i (gen i) (CLen (gen e))) h = (index inxchk x (len p), h2)).
           { intros W. unfold index. rewrite W. unfold index_c. assert (negb inxchk || match literal i with Some v => (v =? 0) || negb true | None => false end = false) as ->. { rewrite IX. cbn [negb orb]. destruct i as [[| |]| | | | | | | | | |]; try reflexivity. contradiction. }
             rewrite (proj1 calls_eq i). destruct (calls i) eqn:Ci.
             - specialize (Q2 eq_refl). assert (cev (CFun XF (gen i) (CLen (gen e))) h = (call_rt XF x (len p), h2)) as -> by (run; rewrite OB; reflexivity). rewrite (proj1 (XF_ok x (len p) W)), IX. reflexivity.
             - pose proof (quiet_at i h _ _ Ci Ei). subst h2. assert (cev (X_ (gen i) (CLen (gen e))) h = (if x <? len p then Ok x else Trap (-2), h)) as ->; [|rewrite IX; reflexivity].
               unfold X_. run. rewrite OB. cbn [c_bin]. rewrite truth_0. destruct (x <? len p); cbn [negb]; run; reflexivity. }
           rewrite LH. destruct (size_t x && size_t (len p)) eqn:W; [|left; exists h2; unfold index; rewrite W; reflexivity]. right. unfold bnd at 1. rewrite (RH eq_refl). reflexivity.
        -- right. assert (cev (index_c inxchk true i (gen i) (CLen (gen e))) h = (Trap c, h2)) as TR. { unfold index_c, X_. repeat match goal with |- context [if ?b then _ else _] => destruct b end; run; reflexivity. } unfold bnd. rewrite TR, Ei. reflexivity.
        -- left. exists h2. unfold bnd. rewrite Ei. reflexivity.
        -- right. assert (cev (index_c inxchk true i (gen i) (CLen (gen e))) h = (Fuel, h2)) as TR. { unfold index_c, X_. repeat match goal with |- context [if ?b then _ else _] => destruct b end; run; reflexivity. } unfold bnd. rewrite TR, Ei. reflexivity.
    + left. eexists. run. rewrite OP. reflexivity.
  - intros _. apply refines_refl.
  - intros e IHe a IHa [O1 O2]. eqs. apply refines_bnd; [exact (IHe O1)|]. intro v. apply refines_bnd; [exact (IHa O2)|intro; apply refines_refl].
  - intros d IHd a IHa [O1 O2]. eqs. apply refines_bnd; [exact (IHd O1)|]. intro v. apply refines_bnd; [exact (IHa O2)|intro; apply refines_refl].
  - intros e IHe a IHa (O1 & O2 & C) h. specialize (IHe O1). specialize (IHa O2). eqs. pureR IHe C h p h1 E Q. pose proof (object_eq p) as OB. destruct (object p) as [p'|k| |] eqn:OP; try (unfold object, need in OP; destruct (p =? 0); discriminate).
    + assert (p' = p) by (unfold object, need in OP; destruct (p =? 0); inversion OP; reflexivity). subst p'.
      start IHa h vs h2 E2 Q2; [|right; runs; reflexivity|left; eexists; runs; reflexivity|right; runs; reflexivity]. right. runs. reflexivity.
    + left. eexists. run. rewrite OP. reflexivity.
  - intros e IHe a IHa (O1 & O2 & C) h. specialize (IHe O1). specialize (IHa O2). eqs. pureR IHe C h p h1 E Q. pose proof (object_eq p) as OB. destruct (object p) as [p'|k| |] eqn:OP; try (unfold object, need in OP; destruct (p =? 0); discriminate).
    + assert (p' = p) by (unfold object, need in OP; destruct (p =? 0); inversion OP; reflexivity). subst p'.
      start IHa h vs h2 E2 Q2; [|right; runs; reflexivity|left; eexists; runs; reflexivity|right; runs; reflexivity]. right. runs. reflexivity.
    + left. eexists. run. rewrite OP. reflexivity.
Qed.

(** ** C73 *)

(** What the language says is executed is executed: the same calls with the same arguments in the same order, and the same result, whatever the procedures called do. *)
Theorem C73_once : forall e h r h', once e -> eval e h = (r, h') -> r <> UB -> cev (gen e) h = (r, h').
Proof. intros e h r h' O E N. destruct (proj1 refined e O h) as [[k K]|K]; [rewrite E in K; injection K as -> _; contradiction|rewrite K; exact E]. Qed.
Theorem C73_designator : forall d h r h', once_d d -> place d h = (r, h') -> r <> UB -> clv (gen_d d) h = (r, h').
Proof. intros d h r h' O E N. destruct (proj1 (proj2 refined) d O h) as [[k K]|K]; [rewrite E in K; injection K as -> _; contradiction|rewrite K; exact E]. Qed.

(** At most as many calls are executed as are written; as many if there is no & or OR and no check fails. *)
Definition counted {A} (n : nat) (s : bool) (m : M A) : Prop := forall h r h', m h = (r, h') -> exists new, h' = new ++ h /\ (length new <= n)%nat /\ (s = true -> match r with Ok _ => length new = n | _ => True end).
Lemma counted_bnd : forall A B (m : M A) (k : A -> M B) n n' s s', counted n s m -> (forall a, counted n' s' (k a)) -> counted (n + n') (s && s') (bnd m k).
Proof.
  intros A B m k n n' s s' H K h r h' E. unfold bnd in E. destruct (m h) as [[a|c| |] h1] eqn:E1; destruct (H h _ h1 E1) as (new & -> & L & F); try (injection E as <- <-; exists new; split; [reflexivity|]; split; [lia|trivial]).
  destruct (K a _ _ _ E) as (new' & -> & L' & F'). exists (new' ++ new). rewrite <- app_assoc, app_length. split; [reflexivity|]. split; [lia|]. intros S. apply andb_true_iff in S. destruct S as [S S']. specialize (F S). specialize (F' S'). destruct r; auto. lia.
Qed.
Lemma counted_0 : forall A (m : M A), (forall h, snd (m h) = h) -> counted 0 true m.
Proof. intros A m H h r h' E. specialize (H h). rewrite E in H. cbn in H. subst. exists []. split; [reflexivity|]. split; [cbn; lia|]. intros _. destruct r; auto. Qed.
Lemma counted_eq : forall A (m : M A) n s n' s', counted n s m -> n = n' -> s = s' -> counted n' s' m. Proof. intros; subst; assumption. Qed.
Lemma counted_call : forall A (m : M A) (f : A -> Z) (g : A -> list val) (k : history -> A -> Z) n s, counted n s m -> counted (S n) s (do a <- m; fun h => (Ok (k h a), Called (f a) (g a) :: h)).
Proof.
  intros A m f g k n s H h r h' E. unfold bnd in E. destruct (m h) as [[a|c| |] h1] eqn:E1; destruct (H h _ h1 E1) as (new & -> & L & F); injection E as <- <-; try (exists new; split; [reflexivity|]; split; [lia|trivial]).
  exists (Called (f a) (g a) :: new). split; [reflexivity|]. cbn [length]. split; [lia|]. intros S. specialize (F S). cbn in F. lia.
Qed.
Lemma count : (forall e, counted (sites e) (straight e) (eval e)) /\ (forall d, counted (sites_d d) (straight_d d) (place d)) /\ (forall a, counted (sites_a a) (straight_a a) (arguments a)).
Proof.
  assert (Z0 : forall A (r : res A), counted 0 true (fail r)) by (intros; apply counted_0; reflexivity).
  assert (R0 : forall A (r : A), counted 0 true (ret r)) by (intros; apply counted_0; reflexivity).
  assert (T1 : forall A B (m : M A) (k : A -> M B) n s, counted n s m -> (forall a, counted 0 true (k a)) -> counted n s (bnd m k)) by (intros A B m k n s H K; eapply counted_eq; [eapply counted_bnd; eassumption|lia|apply andb_true_r]).
  assert (T0 : forall A B (r : res A) (k : A -> M B) n s, (forall a, counted n s (k a)) -> counted n s (bnd (fail r) k)) by (intros A B r k n s K; eapply counted_eq; [eapply counted_bnd; [apply Z0|exact K]|lia|reflexivity]).
  apply all_ind.
  - intros v. apply R0.
  - intros d H. rewrite u_load. apply T1; [exact H|]. intro; apply counted_0; reflexivity.
  - intros f a H. rewrite u_call. apply counted_call with (f := fun _ => f) (g := fun vs => vs) (k := fun h vs => result h f vs). exact H.
  - intros m e H a Ha. rewrite u_send. apply counted_eq with (n := (sites e + S (sites_a a))%nat) (s := straight e && straight_a a); [|cbn [sites]; lia|reflexivity]. apply counted_bnd; [exact H|]. intro p. apply T0. intro p'.
    apply counted_call with (f := fun _ => method (tag p') m) (g := fun vs => Num p' :: vs) (k := fun h vs => result h (method (tag p') m) (Num p' :: vs)). exact Ha.
  - intros o e H. cbn [OnceSpec.eval]. apply T1; [exact H|]. intro; apply Z0.
  - intros o e1 H1 e2 H2. cbn [OnceSpec.eval]. apply counted_bnd; [exact H1|]. intro x. apply T1; [exact H2|]. intro; apply Z0.
  - intros e1 H1 e2 H2. cbn [OnceSpec.eval]. intros h r h' E. assert (X : counted (sites e1 + sites e2) (straight e1 && false) (do x <- eval e1; if x =? 0 then ret 0 else do y <- eval e2; ret (truth (negb (y =? 0))))).
    { apply counted_bnd; [exact H1|]. intro x. destruct (x =? 0). - intros h0 r0 h0' E0. injection E0 as <- <-. exists []. split; [reflexivity|]. split; [cbn; lia|discriminate]. - assert (Y : counted (sites e2) (straight e2) (do y <- eval e2; ret (truth (negb (y =? 0))))) by (apply T1; [exact H2|intro; apply R0]).
      intros h0 r0 h0' E0. destruct (Y h0 r0 h0' E0) as (new & -> & L & _). exists new. split; [reflexivity|]. split; [exact L|discriminate]. }
    destruct (X h r h' E) as (new & -> & L & _). exists new. split; [reflexivity|]. split; [exact L|discriminate].
  - intros e1 H1 e2 H2. cbn [OnceSpec.eval]. intros h r h' E. assert (X : counted (sites e1 + sites e2) (straight e1 && false) (do x <- eval e1; if x =? 0 then do y <- eval e2; ret (truth (negb (y =? 0))) else ret 1)).
    { apply counted_bnd; [exact H1|]. intro x. destruct (x =? 0). 2: { intros h0 r0 h0' E0. injection E0 as <- <-. exists []. split; [reflexivity|]. split; [cbn; lia|discriminate]. } assert (Y : counted (sites e2) (straight e2) (do y <- eval e2; ret (truth (negb (y =? 0))))) by (apply T1; [exact H2|intro; apply R0]).
      intros h0 r0 h0' E0. destruct (Y h0 r0 h0' E0) as (new & -> & L & _). exists new. split; [reflexivity|]. split; [exact L|discriminate]. }
    destruct (X h r h' E) as (new & -> & L & _). exists new. split; [reflexivity|]. split; [exact L|discriminate].
  - intros e H t. cbn [OnceSpec.eval]. apply T1; [exact H|]. intro. apply T0. intro. apply R0.
  - intros e H t. change (eval (EGuard e t)) with (do p <- eval e; if typchk then (do p <- fail (object p); if extends (tag p) t then ret p else fail (Trap (-5))) else ret p). apply T1; [exact H|]. intro p. apply counted_0. intro h. unfold bnd, fail, ret. destruct typchk, (object p) as [p'| | |]; try reflexivity. destruct (extends (tag p') t); reflexivity.
  - intros e H. cbn [OnceSpec.eval]. apply T1; [exact H|]. intro. apply T0. intro. apply R0.
  - intros i. apply R0.
  - intros d H k. cbn [OnceSpec.place]. apply T1; [exact H|]. intro; apply R0.
  - intros d H n e He. rewrite u_index. apply counted_bnd; [exact H|]. intro l. apply T1; [exact He|]. intro i. apply T0. intro; apply R0.
  - intros e H. rewrite u_deref. apply T1; [exact H|]. intro. apply T0. intro. apply R0.
  - intros e H i Hi. rewrite u_elem. apply counted_bnd; [exact H|]. intro p. apply T0. intro p'. apply T1; [exact Hi|]. intro x. apply T0. intro. apply R0.
  - apply R0.
  - intros e H a Ha. rewrite u_val. apply counted_bnd; [exact H|]. intro v. apply T1; [exact Ha|]. intro; apply R0.
  - intros d H a Ha. rewrite u_var. apply counted_bnd; [exact H|]. intro v. apply T1; [exact Ha|]. intro; apply R0.
  - intros e H a Ha. rewrite u_rec. apply counted_bnd; [exact H|]. intro v. apply T0. intro. apply T1; [exact Ha|]. intro; apply R0.
  - intros e H a Ha. rewrite u_open. apply counted_bnd; [exact H|]. intro v. apply T0. intro. apply T1; [exact Ha|]. intro; apply R0.
Qed.
Theorem C73_count : forall e h r h', once e -> eval e h = (r, h') -> r <> UB ->
  exists new, cev (gen e) h = (r, new ++ h) /\ (length new <= sites e)%nat /\ (straight e = true -> (exists v, r = Ok v) -> length new = sites e).
Proof.
  intros e h r h' O E N. destruct (proj1 count e h r h' E) as (new & -> & L & S). exists new. split; [apply C73_once; assumption|]. split; [exact L|]. intros ST [v ->]. exact (S ST).
Qed.
End World.
Print Assumptions C73_once.
Print Assumptions C73_designator.
Print Assumptions C73_count.

(** ** What the conditions are for *)
Module Case.
(** Procedure 1 returns 3 and changes the variable 1: it held object 20 with 2 elements, then object 21 with 9.  Variable 0 is an array of pointers to object 10, variable 2
    holds 1, then -1.  Objects have type 5; type-bound procedure m of it is procedure 100 + m. *)
Definition result (h : history) (f : Z) (vs : list val) : Z := 3.
Definition mem (h : history) (l : loc) : Z :=
  match l with
  | (Global 0, _) => 10
  | (Global 1, []) => match h with [] => 20 | _ => 21 end
  | (Global 2, []) => match h with [] => 1 | _ => -1 end
  | _ => 7
  end.
Definition tag (p : Z) : Z := 5.
Definition len (p : Z) : Z := if p =? 20 then 2 else 9.
Definition extends (t t' : Z) : bool := t =? t'.
Definition method (t m : Z) : Z := 100 + m.
Definition source (e : expr) := eval true true true result mem tag len extends method e [].
Definition target (e : expr) := cev result mem tag len extends method (gen true true true e) [].
Definition f : expr := ECall 1 ANil.
Definition elem : expr := ELoad (DIndex (DVar 0) 8 f).
Definition c1 : event := Called 1 [].

End Case.
Import Case.
(** f() IN {1, 3}: f is called twice. *)
Theorem C73_in_refuted : source (EBin (In 32) f (EInt 10)) = (Ok 1, [c1]) /\ target (EBin (In 32) f (EInt 10)) = (Ok 1, [c1; c1]). Proof. split; vm_compute; reflexivity. Qed.
(** i IN f() with i beyond the set: f is not called. *)
Theorem C73_in_set_refuted : let e := EBin (In 32) (EBin Add (ELoad (DVar 2)) (EInt 99)) f in source e = (Ok 0, [c1]) /\ target e = (Ok 0, []). Proof. split; vm_compute; reflexivity. Qed.
(** SYSTEM.LSH(1, f()), SYSTEM.ROT(f(), 3): f is called twice; SYSTEM.ROT(1, f()): three times. *)
Theorem C73_shift_refuted :
  source (EBin (Lsh 32) (EInt 1) f) = (Ok 8, [c1]) /\ target (EBin (Lsh 32) (EInt 1) f) = (Ok 8, [c1; c1]) /\
  source (EBin (Rot 32) f (EInt 3)) = (Ok 24, [c1]) /\ target (EBin (Rot 32) f (EInt 3)) = (Ok 24, [c1; c1]) /\
  source (EBin (Rot 32) (EInt 1) f) = (Ok 8, [c1]) /\ target (EBin (Rot 32) (EInt 1) f) = (Ok 8, [c1; c1; c1]).
Proof. repeat split; vm_compute; reflexivity. Qed.
(** ASH(f(), n) where f changes the sign of n: the direction is that of the old n, the distance that of the new. *)
Theorem C73_ash_refuted : let e := EBin Ash f (ELoad (DVar 2)) in source e = (Ok 1, [c1]) /\ target e = (UB, [c1]). Proof. split; vm_compute; reflexivity. Qed.
(** a[f()](T): f is called twice. *)
Theorem C73_guard_refuted : source (EGuard elem 5) = (Ok 10, [c1]) /\ target (EGuard elem 5) = (Ok 10, [c1; c1]). Proof. split; vm_compute; reflexivity. Qed.
(** a[f()].m: f is called twice. *)
Theorem C73_receiver_refuted : source (ESend 1 elem ANil) = (Ok 3, [Called 101 [Num 10]; c1]) /\ target (ESend 1 elem ANil) = (Ok 3, [Called 101 [Num 10]; c1; c1]). Proof. split; vm_compute; reflexivity. Qed.
(** a[f()][2] for pointers to open arrays: f is called twice. *)
Theorem C73_element_refuted : let e := ELoad (DElem elem (EInt 2)) in source e = (Ok 7, [c1]) /\ target e = (Ok 7, [c1; c1]). Proof. split; vm_compute; reflexivity. Qed.
(** P(a[f()]^), record or open array by reference: f is called twice. *)
Theorem C73_parameter_refuted :
  source (ECall 2 (ARec elem ANil)) = (Ok 3, [Called 2 [Ref (Object 10, []); Num 5]; c1]) /\ target (ECall 2 (ARec elem ANil)) = (Ok 3, [Called 2 [Ref (Object 10, []); Num 5]; c1; c1]) /\
  source (ECall 2 (AOpen elem ANil)) = (Ok 3, [Called 2 [Ref (Object 10, []); Num 9]; c1]) /\ target (ECall 2 (AOpen elem ANil)) = (Ok 3, [Called 2 [Ref (Object 10, []); Num 9]; c1; c1]).
Proof. repeat split; vm_compute; reflexivity. Qed.
(** p[f()] where f replaces p by a longer array: the index is checked against the new array and used in the old one, beyond its end. *)
Theorem C73_index_refuted : let d := DElem (ELoad (DVar 1)) f in
  source (ELoad d) = (Trap (-2), [c1]) /\ clv result mem tag len extends method (gen_d true true true d) [] = (Ok (Object 20, [3]), [c1]) /\ len 20 = 2.
Proof. repeat split; vm_compute; reflexivity. Qed.

Module Sample.
(** Non-vacuity: (f() DIV 2 + ABS(f()) > 0) & (p(T).m(f()) + a[f()] MOD 7 = ASH(f(), 2)) OR x IN {1, 3}. *)
Definition big : expr :=
  EOr (EAnd (EBin (Rel Gt) (EBin Add (EBin Div f (EInt 2)) (EUn Abs f)) (EInt 0))
            (EBin (Rel Eq) (EBin Add (ESend 1 (EGuard (ELoad (DVar 1)) 5) (AVal f ANil)) (EBin Mod elem (EInt 7))) (EBin Ash f (EInt 2))))
      (EBin (In 32) (ELoad (DVar 2)) (EInt 10)).
Example fine : once true true true result mem tag len extends method big.
Proof. cbn. repeat split; auto. intro h. exists 10. reflexivity. Qed.
Example runs : source big = target big /\ exists h, source big = (Ok 0, h) /\ length h = 6%nat /\ sites big = 6%nat.
Proof. split; [vm_compute; reflexivity|]. exists [c1; c1; Called 101 [Num 21; Num 3]; c1; c1; c1]. repeat split; vm_compute; reflexivity. Qed.
Example some : forall p, 0 < len p. Proof. intro p. unfold len. destruct (p =? 20); lia. Qed.
End Sample.
Print Assumptions C73_in_refuted.
Print Assumptions C73_in_set_refuted.
Print Assumptions C73_shift_refuted.
Print Assumptions C73_ash_refuted.
Print Assumptions C73_guard_refuted.
Print Assumptions C73_receiver_refuted.
Print Assumptions C73_element_refuted.
Print Assumptions C73_parameter_refuted.
Print Assumptions C73_index_refuted.
