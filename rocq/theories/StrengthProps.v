(** C40: replacing operators by cheaper ones preserves values and effects. *)
From Verif Require Import Base ArithModel ArithSpec ArithProofs ArithProps LitModel LitProps OpsProps FoldModel FoldProps StrengthModel.

(** ** Specification *)
(** Nodes as the compiler builds them: Boolean results come from Boolean operators, and Boolean constants are 0 or 1. *)
Definition logical (op : binop) : Prop := match op with AndOp | OrOp | Rel _ => True | _ => False end.
Definition tok (t : ty) : Prop := match t with TInt s => int_size s | TBool => True end.
Fixpoint wf (e : expr) : Prop :=
  match e with
  | Const v t => tok t /\ in_int 64 v /\ (t = TBool -> v = 0 \/ v = 1)
  | Leaf _ t => tok t
  | Conv a t => wf a /\ tok t /\ t <> TBool
  | Bin op a b t => wf a /\ wf b /\ tok t /\ (t = TBool -> logical op)
  end.
(** Boolean variables and functions deliver 0 or 1. *)
Definition booleans {St} (leaf : nat -> ty -> St -> res (Z * St)) : Prop := forall i st v st', leaf i TBool st = Ok (v, st') -> v = 0 \/ v = 1.
(** A product with a constant zero and an operand that has to be evaluated. *)
Definition zero_product (op : binop) (z y : expr) : Prop := op = Times /\ (const_of z = Some 0 \/ const_of y = Some 0).

(** The value of an expression in the mathematical sense, its type, and its evaluation from left to right.  The evaluation is undefined (UB) when a value
    does not fit its type, when a divisor is zero, and near the ends of the 64-bit range where DIV and MOD themselves are undefined (C01). *)
Definition fitsb (s v : Z) : bool := (- 2 ^ (8 * s - 1) <=? v) && (v <? 2 ^ (8 * s - 1)).
Definition small (v : Z) : Z := if fitsb 1 v then 1 else if fitsb 2 v then 2 else if fitsb 4 v then 4 else 8.
Definition okv (t : ty) (v : Z) : bool := match t with TInt s => fitsb s v | TBool => (v =? 0) || (v =? 1) end.
Definition mathop (op : binop) (x y : Z) : option Z :=
  match op with
  | Times => Some (x * y) | Plus => Some (x + y) | Minus => Some (x - y)
  | Divide => if y =? 0 then None else Some (x / y)
  | Modulo => if y =? 0 then None else Some (x mod y)
  | Rel r => Some (b2z (holds r x y))
  | AndOp => Some (if x =? 0 then 0 else y) | OrOp => Some (if x =? 0 then y else 1)
  | Shift | Mask => None
  end.
Fixpoint cval (e : source) : option Z :=
  match e with
  | SLit v => Some v
  | SBool b => Some (b2z b)
  | SLeaf _ _ => None
  | SBin op a b =>
      match cval a, cval b with
      | Some x, Some y => mathop op x y
      | Some x, None => match op with AndOp => if x =? 0 then Some 0 else None | OrOp => if x =? 0 then None else Some 1 | _ => None end
      | _, _ => None
      end
  end.
Definition join (a b : ty) : ty := match a, b with TInt x, TInt y => TInt (Z.max x y) | _, _ => TBool end.
Fixpoint stype (e : source) : ty :=
  match e with
  | SLit v => TInt (small v)
  | SBool _ => TBool
  | SLeaf _ t => t
  | SBin (AndOp | OrOp | Rel _) _ _ => TBool
  | SBin op a b => match cval a, cval b with Some x, Some y => match mathop op x y with Some v => TInt (small v) | None => TBool end | _, _ => join (stype a) (stype b) end
  end.
Definition limit (op : binop) (x y : Z) : bool := match op with Divide | Modulo => Z.abs x + Z.abs y <=? 9223372036854775807 | _ => true end.
Fixpoint ideal {St} (leaf : nat -> ty -> St -> res (Z * St)) (e : source) (st : St) : res (Z * St) :=
  match e with
  | SLit v => Ok (v, st)
  | SBool b => Ok (b2z b, st)
  | SLeaf i t => let* (v, st) := leaf i t st in if okv t v then Ok (v, st) else UB
  | SBin AndOp a b => let* (x, st) := ideal leaf a st in if x =? 0 then Ok (0, st) else ideal leaf b st
  | SBin OrOp a b => let* (x, st) := ideal leaf a st in if x =? 0 then ideal leaf b st else Ok (1, st)
  | SBin op a b =>
      let* (x, st) := ideal leaf a st in
      let* (y, st) := ideal leaf b st in
      match mathop op x y with Some v => if okv (stype e) v && limit op x y then Ok (v, st) else UB | None => UB end
  end.
(** Literals fit 64 bits, types exist, and shifts and masks do not occur in programs. *)
Fixpoint written (e : source) : Prop :=
  match e with
  | SLit v => in_int 64 v
  | SBool _ => True
  | SLeaf _ t => tok t
  | SBin op a b => written a /\ written b /\ op <> Shift /\ op <> Mask
  end.
(** No operand that has to be evaluated is multiplied by a constant zero. *)
Fixpoint nozero (e : source) : Prop :=
  match e with
  | SBin op a b => nozero a /\ nozero b /\ (op = Times -> (cval a = Some 0 -> cval b <> None) /\ (cval b = Some 0 -> cval a <> None))
  | _ => True
  end.

(** ** Lemmas *)
Lemma log_spec : forall f x e, 0 < x -> x < 2 ^ Z.of_nat f -> exists l k, log_loop f x e = Ok (l, e + k) /\ 0 <= k /\ x = l * 2 ^ k /\ 0 < l.
Proof.
  induction f as [|f IH]; intros x e Hx Hf; [cbn in Hf; lia|]. cbn [log_loop]. destruct (Z.odd x) eqn:O; cbn [negb].
  - exists x, 0. rewrite Z.add_0_r, Z.pow_0_r. conjs; try reflexivity; lia.
  - assert (E : x = 2 * (x / 2)). { pose proof (Zmod_odd x) as M. rewrite O in M. lia. }
    rewrite Nat2Z.inj_succ, Z.pow_succ_r in Hf by lia. destruct (IH (x / 2) (e + 1) ltac:(lia) ltac:(lia)) as (l & k & R & K & X & L).
    exists l, (k + 1). rewrite R. conjs; try lia. + do 2 f_equal. lia. + rewrite Z.pow_add_r by lia. lia.
Qed.
Lemma log_pow : forall x r, in_int 64 x -> log x = Ok r -> fst r = 1 -> x = 2 ^ snd r /\ 0 <= snd r <= 62.
Proof.
  intros x [l e] Hx H L. cbn [fst snd] in *. subst l. rewrite in64 in Hx. unfold log in H. destruct (Z.gtb_spec x 0).
  - destruct (log_spec 64 x 0 ltac:(lia) ltac:(unfold MAXI in Hx; change (2 ^ Z.of_nat 64) with 18446744073709551616; lia)) as (l & k & R & K & X & _). rewrite R in H. injection H as -> <-. split; [lia|].
    split; [exact K|]. destruct (Z_le_gt_dec k 62); [assumption|]. exfalso. assert (2 ^ 63 <= 2 ^ k) by (apply Z.pow_le_mono_r; lia). change (2 ^ 63) with 9223372036854775808 in *. unfold MAXI in *. lia.
  - injection H as -> _. lia.
Qed.
Lemma log_ok : forall x, in_int 64 x -> exists l e, log x = Ok (l, e).
Proof.
  intros x Hx. rewrite in64 in Hx. unfold log. destruct (Z.gtb_spec x 0); [|eauto].
  destruct (log_spec 64 x 0 ltac:(lia) ltac:(unfold MAXI in Hx; change (2 ^ Z.of_nat 64) with 18446744073709551616; lia)) as (l & k & R & _). eauto.
Qed.
Lemma mask_mod : forall x k, 0 <= k -> Z.land x (Z.lnot (- 2 ^ k)) = x mod 2 ^ k.
Proof. intros x k Hk. replace (Z.lnot (- 2 ^ k)) with (Z.ones k); [apply Z.land_ones; lia|]. rewrite Z.ones_equiv. unfold Z.lnot. lia. Qed.
Lemma DIV_inline_floor : forall w x y q, DIV_inline w x y = Ok q -> y <> 0 -> q = x / y.
Proof.
  intros w x y q H Hy. unfold DIV_inline in H. destruct ((x >? 0) && (y >? 0)) eqn:E; [|exact (SYSTEM_DIV_floor _ _ _ H Hy)].
  destruct (c_div_inv _ _ _ _ H) as [_ ->]. apply quot_floor; lia.
Qed.
Lemma MOD_inline_floor : forall w x y q, MOD_inline w x y = Ok q -> y <> 0 -> q = x mod y.
Proof.
  intros w x y q H Hy. unfold MOD_inline in H. destruct ((x >? 0) && (y >? 0)) eqn:E; [|exact (SYSTEM_MOD_floor _ _ _ H Hy)].
  destruct (c_rem_inv _ _ _ _ H) as [_ ->]. apply rem_floor; lia.
Qed.
Lemma ASH_left : forall x k, 0 <= k <= 62 -> in_int 64 (x * 2 ^ k) -> ASH x k = Ok (x * 2 ^ k).
Proof.
  intros x k Hk Hx. unfold ASH, ASHL. replace (k >=? 0) with true by lia. replace ((0 <=? k) && (k <? 64)) with true by lia. rewrite Z.shiftl_mul_pow2 by lia. f_equal. apply wrap_s_id; [lia | exact Hx].
Qed.
Lemma ASH_right : forall x k, 0 < k <= 62 -> ASH x (- k) = Ok (x / 2 ^ k).
Proof.
  intros x k Hk. unfold ASH, ASHR. replace (- k >=? 0) with false by lia. rewrite Z.opp_involutive. replace ((0 <=? k) && (k <? 64)) with true by lia. rewrite Z.shiftr_div_pow2 by lia. reflexivity.
Qed.
Lemma ash_m1 : forall k, 0 <= k <= 62 -> ASH (-1) k = Ok (- 2 ^ k).
Proof.
  intros k Hk. rewrite ASH_left; [f_equal; lia | lia|]. apply in64. assert (0 < 2 ^ k <= 2 ^ 62) by (split; [lia | apply Z.pow_le_mono_r; lia]). change (2 ^ 62) with 4611686018427387904 in *. unfold MINI, MAXI. lia.
Qed.

Lemma wf_ty : forall e, wf e -> tok (ty_of e).
Proof. intros [] H; cbn [wf ty_of] in *; tauto. Qed.
Lemma wf_const : forall e, wf e -> forall v, const_of e = Some v -> in_int 64 v.
Proof. intros e H u E. destruct e; cbn in E; try discriminate. injection E as <-. cbn [wf] in H. tauto. Qed.

Section Meaning.
Context {St : Type}.
Variable leaf : nat -> ty -> St -> res (Z * St).
Hypothesis Hleaf : booleans leaf.
Notation ev := (ev St leaf).

Lemma bool_value : forall e, wf e -> ty_of e = TBool -> forall st v st', ev e st = Ok (v, st') -> v = 0 \/ v = 1.
Proof.
  intros e W T st v st' H. destruct e as [c t|i t|a t|op a b t]; cbn [ty_of] in T; subst t; cbn [wf ev] in *.
  - injection H as <- <-. tauto.
  - exact (Hleaf _ _ _ _ H).
  - tauto.
  - destruct W as (_ & _ & _ & L). specialize (L eq_refl). destruct op; cbn [logical] in L; try contradiction; destruct (bind_inv _ _ _ _ _ H) as ([x s1] & _ & H1).
    + destruct (x =? 0); [injection H1 as <- <-; auto|]. destruct (bind_inv _ _ _ _ _ H1) as ([y s2] & _ & H2). injection H2 as <- <-. destruct (y =? 0); cbn; auto.
    + destruct (x =? 0); [|injection H1 as <- <-; auto]. destruct (bind_inv _ _ _ _ _ H1) as ([y s2] & _ & H2). injection H2 as <- <-. destruct (y =? 0); cbn; auto.
    + destruct (bind_inv _ _ _ _ _ H1) as ([y s2] & _ & H2). cbn [apply bind] in H2. injection H2 as <- <-. destruct (holds r x y); cbn; auto.
Qed.
Lemma Convert_const : forall e s, const_of (Convert e s) = const_of e.
Proof. intros [] s; reflexivity. Qed.
Lemma Convert_ty : forall e s, ty_of (Convert e s) = TInt s.
Proof. intros [] s; reflexivity. Qed.
Lemma Convert_wf : forall e s, int_size s -> wf e -> wf (Convert e s).
Proof. intros [] s S H; cbn [Convert wf tok] in *; conjs; auto; try tauto; discriminate. Qed.
Lemma unify_spec : forall z y z' y', unify z y = Some (z', y') -> const_of z' = const_of z /\ const_of y' = const_of y /\ ty_of z' = ty_of y' /\ (wf z -> wf y -> wf z' /\ wf y').
Proof.
  intros z y z' y' H. unfold unify in H. destruct (ty_of z) as [sz|] eqn:Ez, (ty_of y) as [sy|] eqn:Ey; try discriminate H.
  - assert (Sz : wf z -> int_size sz) by (intros W; apply wf_ty in W; rewrite Ez in W; exact W). assert (Sy : wf y -> int_size sy) by (intros W; apply wf_ty in W; rewrite Ey in W; exact W).
    destruct (Z.eqb_spec sz sy) as [->|]; [|destruct (sy <? sz)]; injection H as <- <-; rewrite ?Convert_const, ?Convert_ty; conjs; auto using Convert_wf; congruence.
  - injection H as <- <-. conjs; auto; congruence.
Qed.
Lemma const_ev : forall e v st, const_of e = Some v -> ev e st = Ok (v, st).
Proof. intros e u st H. destruct e; cbn in H; try discriminate. injection H as ->. reflexivity. Qed.


Lemma ev_bin : forall op a b t st, ~ (op = AndOp \/ op = OrOp) -> ev (Bin op a b t) st = let* (x, st) := ev a st in let* (y, st) := ev b st in let* v := apply op (width (ty_of a)) x y in Ok (v, st).
Proof. intros [] a b t st H; try reflexivity; exfalso; apply H; auto. Qed.
Definition binary (op : binop) (w : Z) (a b : St -> res (Z * St)) (st : St) : res (Z * St) := let* (x, st) := a st in let* (y, st) := b st in let* v := apply op w x y in Ok (v, st).

(** ** One operator *)
(** Whatever replaces the operator as written computes the same value and leaves the same state, and traps in the same way, whenever the
    operator as written is defined. *)
Lemma same_at : forall op z y p e, wf z -> wf y -> (const_of z = None \/ const_of y = None) -> ~ zero_product op z y ->
  plain op z y = Some p -> Op op z y = Ok (Some e) -> forall st, ev p st <> UB -> ev e st = ev p st.
Proof.
  intros op z0 y0 p e Wz0 Wy0 HN HZ HP HO st HU. unfold plain in HP. destruct (unify z0 y0) as [[z y]|] eqn:U; [|discriminate HP]. injection HP as <-.
  destruct (unify_spec _ _ _ _ U) as (Cz & Cy & TT & WW). destruct (WW Wz0 Wy0) as [Wz Wy]. clear WW.
  assert (HR : reduce op z y = Ok (Some e)). { unfold Op in HO. destruct (const_of z0), (const_of y0); try (destruct HN; discriminate); rewrite U in HO; exact HO. }
  clear HO. unfold zero_product in HZ. rewrite <- Cz, <- Cy in HZ, HN. clear U Cz Cy Wz0 Wy0 z0 y0.
  pose proof (wf_ty _ Wz) as Tz. pose proof (wf_const _ Wz) as Kz. pose proof (wf_const _ Wy) as Ky.
  assert (STEP : forall op', ~ (op' = AndOp \/ op' = OrOp) -> forall (f : Z -> res Z) v, const_of y = Some v -> (forall x w, apply op' (width (ty_of z)) x v = Ok w -> f x = Ok w) ->
     (forall x, apply op' (width (ty_of z)) x v <> Fuel /\ forall c, apply op' (width (ty_of z)) x v <> Trap c) -> forall t, ev (Bin op' z y t) st <> UB ->
     (let* (x, st) := ev z st in let* w := f x in Ok (w, st)) = ev (Bin op' z y t) st).
  { intros op' NL f v Cv HF HT t NU. rewrite ev_bin in * by exact NL. destruct (ev z st) as [[x s1]|c| |]; cbn [bind] in *; try reflexivity. rewrite (const_ev _ _ s1 Cv) in *. cbn [bind] in *.
    destruct (HT x) as [HT1 HT2]. destruct (apply op' (width (ty_of z)) x v) as [w|c| |] eqn:A; cbn [bind] in *; try congruence. rewrite (HF x w A). reflexivity. }
  assert (IDZ : (let* (x, st) := ev z st in let* w := Ok x in Ok (w, st)) = ev z st) by (destruct (ev z st) as [[x s1]|c| |]; reflexivity).
  assert (AT : forall w x y, apply Times w x y <> Fuel /\ forall c, apply Times w x y <> Trap c) by (intros; cbn [apply]; unfold chk; destruct (in_intb w _); split; [|intros c| |intros c]; discriminate).
  assert (AP : forall w x y, apply Plus w x y <> Fuel /\ forall c, apply Plus w x y <> Trap c) by (intros; cbn [apply]; unfold chk; destruct (in_intb w _); split; [|intros c| |intros c]; discriminate).
  assert (AM : forall w x y, apply Minus w x y <> Fuel /\ forall c, apply Minus w x y <> Trap c) by (intros; cbn [apply]; unfold chk; destruct (in_intb w _); split; [|intros c| |intros c]; discriminate).
  assert (AD : forall w x y, apply Divide w x y <> Fuel /\ forall c, apply Divide w x y <> Trap c).
  { intros. cbn [apply]. unfold DIV_inline, SYSTEM_DIV, SYSTEM_DIV_with, c_div, bind, chk. repeat match goal with |- context [if ?b then _ else _] => destruct b end; split; try intros c; discriminate. }
  assert (AO : forall w x y, apply Modulo w x y <> Fuel /\ forall c, apply Modulo w x y <> Trap c).
  { intros. cbn [apply]. unfold MOD_inline, SYSTEM_MOD, SYSTEM_MOD_with, c_rem, bind, chk. repeat match goal with |- context [if ?b then _ else _] => destruct b end; split; try intros c; discriminate. }
  assert (W64 : forall v w, ty_of z <> TBool -> chk (width (ty_of z)) v = Ok w -> w = v /\ in_int 64 v).
  { intros v w HT Hc. destruct (chk_inv _ _ _ Hc) as [-> I]. split; [reflexivity|]. apply (in_int_mono (width (ty_of z))); [|exact I]. destruct (ty_of z); [|congruence]. cbn [width tok] in *. unfold int_size in Tz. lia. }
  unfold reduce in HR. destruct op; destruct (ty_of z) as [s|] eqn:Ez; try discriminate HR.
  - (* Times *) destruct (const_of z) as [val|] eqn:Cz.
    + specialize (Kz _ eq_refl). rewrite ev_bin in * by (intros [|]; discriminate). rewrite (const_ev _ _ st Cz) in *. cbn [bind] in *. rewrite Ez in *.
      assert (V0 : val <> 0) by (intros ->; apply HZ; auto).
      destruct (Z.eqb_spec val 1) as [->|V1].
      * injection HR as <-. destruct (ev y st) as [[x s1]|c| |]; cbn [bind apply] in *; try reflexivity. rewrite Z.mul_1_l in *. unfold chk in *. destruct (in_intb (width (TInt s)) x); cbn [bind] in *; [reflexivity | congruence].
      * replace (val =? 0) with false in HR by lia. destruct (log_ok val Kz) as (l & ex & L). rewrite L in HR. cbn [bind] in HR. destruct (Z.eqb_spec l 1) as [->|]; injection HR as <-.
        -- destruct (log_pow val _ Kz L eq_refl) as [P B]. cbn [fst snd] in P, B. rewrite ev_bin by (intros [|]; discriminate). destruct (ev y st) as [[x s1]|c| |]; cbn [bind] in *; try reflexivity. cbn [StrengthModel.ev bind apply] in *. unfold StrengthModel.ev. cbn [bind].
           destruct (chk (width (TInt s)) (val * x)) as [w|c| |] eqn:C; try (unfold chk in C; destruct (in_intb _ _); discriminate C); cbn [bind] in *; [|congruence].
           destruct (W64 _ _ ltac:(discriminate) C) as [-> I]. replace (val * x) with (x * 2 ^ ex) in * by (rewrite P; lia). rewrite ASH_left by (lia || exact I). reflexivity.
        -- rewrite ev_bin by (intros [|]; discriminate). rewrite (const_ev _ _ st Cz). cbn [bind]. rewrite Ez. reflexivity.
    + destruct (const_of y) as [val|] eqn:Cy; [|injection HR as <-; reflexivity]. specialize (Ky _ eq_refl). assert (V0 : val <> 0) by (intros ->; apply HZ; auto).
      destruct (Z.eqb_spec val 1) as [->|V1]; [|replace (val =? 0) with false in HR by lia; destruct (log_ok val Ky) as (l & ex & L); rewrite L in HR; cbn [bind] in HR; destruct (Z.eqb_spec l 1) as [->|]; injection HR as <-; [|reflexivity]].
      * injection HR as <-. rewrite <- IDZ at 1. apply (STEP Times ltac:(intros [|]; discriminate) (fun x => Ok x) 1 eq_refl); auto. intros x w A. cbn [apply] in A. destruct (chk_inv _ _ _ A) as [-> _]. f_equal; lia.
      * destruct (log_pow val _ Ky L eq_refl) as [P B]. cbn [fst snd] in P, B. etransitivity; [|apply (STEP Times ltac:(intros [|]; discriminate) (fun x => ASH x ex) val eq_refl); auto].
        -- rewrite ev_bin by (intros [|]; discriminate). destruct (ev z st) as [[x s1]|c| |]; reflexivity.
        -- intros x w A. cbn [apply] in A. destruct (W64 _ _ ltac:(discriminate) A) as [-> I]. rewrite P in *. apply ASH_left; [lia | exact I].
  - (* Divide *) destruct (const_of y) as [val|] eqn:Cy; [|injection HR as <-; reflexivity]. specialize (Ky _ eq_refl). destruct (Z.eqb_spec val 0) as [|V0]; [discriminate HR|].
    destruct (Z.eqb_spec val 1) as [->|V1]; [|destruct (log_ok val Ky) as (l & ex & L); rewrite L in HR; cbn [bind] in HR; destruct (Z.eqb_spec l 1) as [->|]; injection HR as <-; [|reflexivity]].
    + injection HR as <-. rewrite <- IDZ at 1. apply (STEP Divide ltac:(intros [|]; discriminate) (fun x => Ok x) 1 eq_refl); auto. intros x w A. cbn [apply] in A. rewrite (DIV_inline_floor _ _ _ _ A) by lia. f_equal. symmetry. apply Z.div_1_r.
    + destruct (log_pow val _ Ky L eq_refl) as [P B]. cbn [fst snd] in P, B. etransitivity; [|apply (STEP Divide ltac:(intros [|]; discriminate) (fun x => ASH x (- ex)) val eq_refl); auto].
      * rewrite ev_bin by (intros [|]; discriminate). destruct (ev z st) as [[x s1]|c| |]; reflexivity.
      * intros x w A. cbn [apply] in A. rewrite (DIV_inline_floor _ _ _ _ A) by lia. rewrite P. apply ASH_right. assert (ex <> 0) by (intros ->; rewrite Z.pow_0_r in P; lia). lia.
  - (* Modulo *) destruct (const_of y) as [val|] eqn:Cy; [|injection HR as <-; reflexivity]. specialize (Ky _ eq_refl). destruct (Z.eqb_spec val 0) as [|V0]; [discriminate HR|].
    destruct (log_ok val Ky) as (l & ex & L); rewrite L in HR; cbn [bind] in HR. destruct (Z.eqb_spec l 1) as [->|]; [|injection HR as <-; reflexivity].
    destruct (log_pow val _ Ky L eq_refl) as [P B]. cbn [fst snd] in P, B. rewrite ash_m1 in HR by lia. cbn [bind] in HR. injection HR as <-.
    etransitivity; [|apply (STEP Modulo ltac:(intros [|]; discriminate) (fun x => Ok (Z.land x (Z.lnot (- 2 ^ ex)))) val eq_refl); auto].
    + rewrite ev_bin by (intros [|]; discriminate). destruct (ev z st) as [[x s1]|c| |]; reflexivity.
    + intros x w A. cbn [apply] in A. rewrite (MOD_inline_floor _ _ _ _ A) by lia. rewrite P. f_equal. apply mask_mod. lia.
  - (* Plus *) unfold is in HR. destruct (const_of z) as [vz|] eqn:Cz.
    + destruct (const_of y) as [vy|] eqn:Cy; [destruct HN; discriminate|]. destruct (Z.eqb_spec vz 0) as [->|]; injection HR as <-; [|reflexivity].
      rewrite ev_bin in * by (intros [|]; discriminate). rewrite (const_ev _ _ st Cz) in *. cbn [bind] in *. destruct (ev y st) as [[x s1]|c| |]; cbn [bind apply] in *; try reflexivity. rewrite Z.add_0_l in *. unfold chk in *. destruct (in_intb _ x); cbn [bind] in *; [reflexivity | congruence].
    + destruct (const_of y) as [vy|] eqn:Cy; [|injection HR as <-; reflexivity]. destruct (Z.eqb_spec vy 0) as [->|]; injection HR as <-; [|reflexivity].
      rewrite <- IDZ at 1. apply (STEP Plus ltac:(intros [|]; discriminate) (fun x => Ok x) 0 eq_refl); auto. intros x w A. cbn [apply] in A. destruct (chk_inv _ _ _ A) as [-> _]. f_equal; lia.
  - (* Minus *) unfold is in HR. destruct (const_of y) as [vy|] eqn:Cy; [|injection HR as <-; reflexivity]. destruct (Z.eqb_spec vy 0) as [->|]; injection HR as <-; [|reflexivity].
    rewrite <- IDZ at 1. apply (STEP Minus ltac:(intros [|]; discriminate) (fun x => Ok x) 0 eq_refl); auto. intros x w A. cbn [apply] in A. destruct (chk_inv _ _ _ A) as [-> _]. f_equal; lia.
  - (* AndOp *) destruct (const_of z) as [vz|] eqn:Cz.
    + cbn [StrengthModel.ev] in *. rewrite (const_ev _ _ st Cz) in *. cbn [bind] in *. destruct (Z.eqb_spec vz 0) as [->|]; cbn [negb] in HR; injection HR as <-; [apply const_ev; exact Cz|].
      destruct (ev y st) as [[x s1]|c| |] eqn:Ey; cbn [bind]; try reflexivity. destruct (bool_value y Wy (eq_sym TT) _ _ _ Ey) as [-> | ->]; reflexivity.
    + destruct (const_of y) as [vy|] eqn:Cy; [|injection HR as <-; reflexivity]. destruct (Z.eqb_spec vy 0) as [->|]; cbn [negb] in HR; injection HR as <-; [reflexivity|].
      cbn [StrengthModel.ev] in *. destruct (ev z st) as [[x s1]|c| |] eqn:Ezz; cbn [bind] in *; try reflexivity. rewrite (const_ev _ _ s1 Cy) in *. cbn [bind] in *. replace (vy =? 0) with false by lia. cbn [negb b2z].
      destruct (bool_value z Wz Ez _ _ _ Ezz) as [-> | ->]; reflexivity.
  - (* OrOp *) destruct (const_of z) as [vz|] eqn:Cz.
    + cbn [StrengthModel.ev] in *. rewrite (const_ev _ _ st Cz) in *. cbn [bind] in *. destruct (Z.eqb_spec vz 0) as [->|]; injection HR as <-.
      * destruct (ev y st) as [[x s1]|c| |] eqn:Ey; cbn [bind]; try reflexivity. destruct (bool_value y Wy (eq_sym TT) _ _ _ Ey) as [-> | ->]; reflexivity.
      * destruct (bool_value z Wz Ez _ _ _ (const_ev _ _ st Cz)) as [-> | ->]; [congruence | apply const_ev; exact Cz].
    + destruct (const_of y) as [vy|] eqn:Cy; [|injection HR as <-; reflexivity]. destruct (Z.eqb_spec vy 0) as [->|]; injection HR as <-; [|reflexivity].
      cbn [StrengthModel.ev] in *. destruct (ev z st) as [[x s1]|c| |] eqn:Ezz; cbn [bind] in *; try reflexivity. rewrite (const_ev _ _ s1 Cy) in *. cbn [bind] in *. cbn [negb b2z Z.eqb].
      destruct (bool_value z Wz Ez _ _ _ Ezz) as [-> | ->]; reflexivity.
  - (* Rel *) injection HR as <-. reflexivity.
Qed.

(** ** Whole expressions *)
Lemma fitsb_iff : forall s v, fitsb s v = true <-> fits s v.
Proof. intros. unfold fitsb, fits. lia. Qed.
Lemma small_spec : forall v s, int_size s -> fits s v -> (forall s', int_size s' -> fits s' v -> s <= s') -> small v = s.
Proof.
  intros v s Hs Hf Hm. unfold small. pose proof (Hm 1) as H1. pose proof (Hm 2) as H2. pose proof (Hm 4) as H4.
  destruct (fitsb 1 v) eqn:E1; [apply fitsb_iff in E1; specialize (H1 ltac:(unfold int_size; lia) E1); unfold int_size in Hs; lia|].
  assert (N1 : s <> 1) by (intros ->; apply fitsb_iff in Hf; congruence).
  destruct (fitsb 2 v) eqn:E2; [apply fitsb_iff in E2; specialize (H2 ltac:(unfold int_size; lia) E2); unfold int_size in Hs; lia|].
  assert (N2 : s <> 2) by (intros ->; apply fitsb_iff in Hf; congruence).
  destruct (fitsb 4 v) eqn:E4; [apply fitsb_iff in E4; specialize (H4 ltac:(unfold int_size; lia) E4); unfold int_size in Hs; lia|].
  assert (N4 : s <> 4) by (intros ->; apply fitsb_iff in Hf; congruence). unfold int_size in Hs. lia.
Qed.
Lemma good_small : forall z v s, good z (Ok (Val v s)) -> v = z /\ s = small z /\ int_size s /\ in_int 64 z.
Proof. intros z v s (s0 & E & I & S & F & M). injection E as -> ->. rewrite (small_spec z s0 S F M). auto. Qed.
(** Folding an arithmetic operator. *)
Lemma fold_math : forall op x y tx tz e, in_int 64 x -> in_int 64 y -> ConstOp op x y tx tz = Ok (Some e) -> ~ logical op ->
  exists v, mathop op x y = Some v /\ e = Const v (TInt (small v)) /\ int_size (small v) /\ in_int 64 v.
Proof.
  intros op x y tx tz e Ix Iy H NL. unfold ConstOp in H. destruct tx, tz; try discriminate H; [|destruct op; try discriminate H; exfalso; apply NL; exact I].
  assert (FIN : forall z r, (r = UB \/ good z r \/ exists n, r = Ok (Err n)) -> (let* f := r in Ok (match f with Val v s => Some (Const v (TInt s)) | Err _ => None end)) = Ok (Some e) ->
     e = Const z (TInt (small z)) /\ int_size (small z) /\ in_int 64 z).
  { intros z r [->|[G|[n ->]]] E; try discriminate E. pose proof G as (s1 & -> & _). cbn [bind] in E. destruct (good_small _ _ _ G) as (_ & -> & S & I). injection E as <-. auto. }
  destruct (C39_fold x y Ix Iy) as [F T]. destruct (C39_div x y Ix Iy) as [D0 D1].
  assert (BD : forall z r, (in_int 64 z -> good z r) /\ (~ in_int 64 z -> exists n, r = Ok (Err n)) -> r = UB \/ good z r \/ exists n, r = Ok (Err n)).
  { intros z r [B1 B2]. destruct (in_intb 64 z) eqn:B; [apply in_intb_iff in B; auto|]. right; right. apply B2. intros I. apply in_intb_iff in I. congruence. }
  destruct op; try discriminate H; try (exfalso; apply NL; exact I); cbn [mathop].
  - exists (x * y). split; [reflexivity|]. apply (FIN _ (fold_times (chk 64) x y)); [|exact H]. rewrite in64 in Ix, Iy.
    destruct (Z_lt_le_dec x 0), (Z_lt_le_dec 0 y).
    + left. apply (C39_times_refuted y x); lia.
    + apply BD. destruct (T ltac:(lia)) as [T1 T2]. split; [exact T1 | eauto].
    + apply BD. destruct (T ltac:(lia)) as [T1 T2]. split; [exact T1 | eauto].
    + destruct (Z.eq_dec x 0) as [->|]; [|destruct (Z.eq_dec y 0) as [->|]].
      * apply BD. destruct (T ltac:(lia)) as [T1 T2]. split; [exact T1 | eauto].
      * apply BD. destruct (T ltac:(lia)) as [T1 T2]. split; [exact T1 | eauto].
      * left. apply (C39_times_refuted x y); lia.
  - destruct (Z.eqb_spec y 0) as [E|E]; [destruct (D0 E) as [D2 _]; rewrite D2 in H; discriminate H|]. exists (x / y). split; [reflexivity|]. apply (FIN _ (fold_div (chk 64) x y)); [|exact H]. destruct (D1 E) as (D2 & _). tauto.
  - destruct (Z.eqb_spec y 0) as [E|E]; [destruct (D0 E) as [_ D2]; rewrite D2 in H; discriminate H|]. exists (x mod y). split; [reflexivity|]. apply (FIN _ (fold_mod (chk 64) x y)); [|exact H]. destruct (D1 E) as (_ & D2 & _). tauto.
  - exists (x + y). split; [reflexivity|]. apply (FIN _ (fold_plus (chk 64) x y)); [|exact H]. apply BD, F. cbn [In]. auto.
  - exists (x - y). split; [reflexivity|]. apply (FIN _ (fold_minus (chk 64) x y)); [|exact H]. apply BD, F. cbn [In]. auto 6.
Qed.
Lemma cmp_holds : forall r x y, fold_cmp r x y = holds r x y.
Proof. intros r x y. destruct (C39_compare x y) as (A & B & C & D & E & F). destruct r; cbn [holds]; apply Bool.eq_true_iff_eq; rewrite ?A, ?B, ?C, ?D, ?E, ?F; lia. Qed.
Lemma okv_fits : forall s v, okv (TInt s) v = true <-> fits s v.
Proof. intros. apply fitsb_iff. Qed.
Lemma ev_Convert : forall a n s st, ty_of a = TInt n -> int_size n -> int_size s -> n < s -> (forall v st', ev a st = Ok (v, st') -> fits n v) -> ev (Convert a s) st = ev a st.
Proof.
  intros a n s st T Hn Hs L F. destruct a as [v t|i t|b t|op b c t]; [reflexivity| | |]; cbn [ty_of] in T; subst t; cbn [Convert StrengthModel.ev ty_of].
  all: match goal with |- bind ?m _ = _ => destruct m as [[v st']|c0| |] eqn:E; cbn [bind]; try reflexivity end; do 2 f_equal; unfold cast; destruct (negb _ && _); [|reflexivity].
  all: apply wrap_s_id; [unfold int_size in Hs; lia|]; apply (fits_mono n s); [unfold int_size in Hn; lia | exact (F _ _ E)].
Qed.
Lemma in_fits : forall s v, fits s v = in_int (8 * s) v.
Proof. reflexivity. Qed.
(** The operator as written, on operands that fit the type. *)
Lemma apply_math : forall op s x y v, ~ logical op -> int_size s -> fits s x -> fits s y -> mathop op x y = Some v -> fits s v -> limit op x y = true -> apply op (width (TInt s)) x y = Ok v.
Proof.
  intros op s x y v NL Hs Fx Fy HM Fv HL. assert (W : 0 < 8 * s <= width (TInt s) /\ width (TInt s) <= 64) by (cbn [width]; unfold int_size in Hs; lia).
  rewrite in_fits in *. assert (CV : chk (width (TInt s)) v = Ok v) by (apply chk_ok, (in_int_mono (8 * s)); [lia | exact Fv]).
  assert (Ix : in_int (width (TInt s)) x) by (apply (in_int_mono (8 * s)); [lia | exact Fx]). assert (Iy : in_int (width (TInt s)) y) by (apply (in_int_mono (8 * s)); [lia | exact Fy]).
  assert (Jx : in_int 64 x) by (apply (in_int_mono (8 * s)); [lia | exact Fx]). assert (Jy : in_int 64 y) by (apply (in_int_mono (8 * s)); [lia | exact Fy]).
  generalize dependent (width (TInt s)). intros w W CV Ix Iy.
  destruct op; cbn [mathop apply limit] in *; try discriminate HM; try (exfalso; apply NL; exact I); try (injection HM as <-; exact CV).
  - destruct (Z.eqb_spec y 0) as [|N]; [discriminate HM|]. injection HM as <-. rewrite DIV_inline_eq by (assumption || lia).
    assert (D : exists q, SYSTEM_DIV x y = Ok q). { apply (C01_div_defined_iff x y Jx Jy N). unfold min_int, max_int. change (2 ^ (64 - 1)) with 9223372036854775808. clear - HL N. lia. }
    destruct D as [q D]. rewrite D. rewrite (SYSTEM_DIV_floor _ _ _ D N). reflexivity.
  - destruct (Z.eqb_spec y 0) as [|N]; [discriminate HM|]. injection HM as <-. rewrite MOD_inline_eq by (assumption || lia).
    assert (D : exists q, SYSTEM_MOD x y = Ok q). { apply (C01_mod_defined_iff x y Jx Jy N). unfold min_int. change (2 ^ (64 - 1)) with 9223372036854775808. clear - HL N. lia. }
    destruct D as [q D]. rewrite D. rewrite (SYSTEM_MOD_floor _ _ _ D N). reflexivity.
Qed.
Lemma ideal_bin : forall op a b st, ~ (op = AndOp \/ op = OrOp) -> ideal leaf (SBin op a b) st =
  let* (x, st) := ideal leaf a st in let* (y, st) := ideal leaf b st in match mathop op x y with Some v => if okv (stype (SBin op a b)) v && limit op x y then Ok (v, st) else UB | None => UB end.
Proof. intros [] a b st H; try reflexivity; exfalso; apply H; auto. Qed.
Lemma stype_bin : forall op a b, ~ logical op -> stype (SBin op a b) = match cval a, cval b with Some x, Some y => match mathop op x y with Some v => TInt (small v) | None => TBool end | _, _ => join (stype a) (stype b) end.
Proof. intros [] a b H; try reflexivity; exfalso; apply H; exact I. Qed.
Lemma small_size : forall v, int_size (small v).
Proof. intros v. unfold small, int_size. destruct (fitsb 1 v), (fitsb 2 v), (fitsb 4 v); lia. Qed.

Definition holds_for (e : source) (e' : expr) : Prop :=
  wf e' /\ ty_of e' = stype e /\ const_of e' = cval e /\ (forall st v st', ideal leaf e st = Ok (v, st') -> okv (stype e) v = true) /\ forall st, ideal leaf e st <> UB -> ev e' st = ideal leaf e st.

(** What the reduced node looks like. *)
Lemma reduce_shape : forall op z y e, wf z -> wf y -> ty_of z = ty_of y -> (const_of z = None \/ const_of y = None) -> ~ zero_product op z y -> reduce op z y = Ok (Some e) ->
  wf e /\ ty_of e = (match op with Rel _ => TBool | _ => ty_of z end) /\ (logical op -> match op with Rel _ => exists s, ty_of z = TInt s | _ => ty_of z = TBool end) /\ (~ logical op -> exists s, ty_of z = TInt s) /\
  const_of e = match const_of z with Some x => match op with AndOp => if x =? 0 then Some 0 else None | OrOp => if x =? 0 then None else Some 1 | _ => None end | None => None end.
Proof.
  intros op z y e Wz Wy TT HN HZ HR. pose proof (wf_ty _ Wz) as Tz. pose proof (wf_const _ Wz) as Kz. pose proof (wf_const _ Wy) as Ky. unfold zero_product in HZ.
  assert (TB : forall o, tok (ty_of z) -> (ty_of z <> TBool) -> wf (Bin o z y (ty_of z))) by (intros o H1 H2; cbn [wf]; conjs; auto; congruence).
  assert (WE : forall a ex, wf a -> ty_of z <> TBool -> -62 <= ex <= 62 -> wf (Bin Shift a (Const ex (TInt 1)) (ty_of z))).
  { intros a ex H1 H2 H3. cbn [wf tok]. conjs; auto; try congruence; try (unfold int_size; lia). apply in64. unfold MINI, MAXI. lia. }
  unfold reduce in HR. destruct op; destruct (ty_of z) as [s|] eqn:Ez; try discriminate HR.
  - assert (G : forall k, (exists s', TInt s = TInt s')) by eauto. destruct (const_of z) as [val|] eqn:Cz.
    + destruct HN as [|HN]; [discriminate|]. specialize (Kz _ eq_refl). assert (V0 : val <> 0) by (intros ->; apply HZ; auto). replace (val =? 0) with false in HR by lia.
      destruct (val =? 1); [injection HR as <-; conjs; auto; intros; contradiction || eauto|]. destruct (log_ok val Kz) as (l & ex & L). rewrite L in HR. cbn [bind] in HR. destruct (Z.eqb_spec l 1) as [->|]; injection HR as <-.
      * destruct (log_pow val _ Kz L eq_refl) as [P B]. cbn [fst snd] in P, B. split; [apply WE; auto; try discriminate; lia|]. conjs; try reflexivity; intros; contradiction || eauto.
      * split; [apply TB; auto; discriminate|]. conjs; try reflexivity; intros; contradiction || eauto.
    + destruct (const_of y) as [val|] eqn:Cy.
      * specialize (Ky _ eq_refl). assert (V0 : val <> 0) by (intros ->; apply HZ; auto). replace (val =? 0) with false in HR by lia.
        destruct (val =? 1); [injection HR as <-; conjs; auto; intros; contradiction || eauto|]. destruct (log_ok val Ky) as (l & ex & L). rewrite L in HR. cbn [bind] in HR. destruct (Z.eqb_spec l 1) as [->|]; injection HR as <-.
        -- destruct (log_pow val _ Ky L eq_refl) as [P B]. cbn [fst snd] in P, B. split; [apply WE; auto; try discriminate; lia|]. conjs; try reflexivity; intros; contradiction || eauto.
        -- split; [apply TB; auto; discriminate|]. conjs; try reflexivity; intros; contradiction || eauto.
      * injection HR as <-. split; [apply TB; auto; discriminate|]. conjs; try reflexivity; intros; contradiction || eauto.
  - destruct (const_of y) as [val|] eqn:Cy.
    + destruct HN as [HN|]; [|discriminate]. rewrite HN. specialize (Ky _ eq_refl). destruct (val =? 0); [discriminate HR|].
      destruct (val =? 1); [injection HR as <-; conjs; auto; intros; contradiction || eauto|]. destruct (log_ok val Ky) as (l & ex & L). rewrite L in HR. cbn [bind] in HR. destruct (Z.eqb_spec l 1) as [->|]; injection HR as <-.
      * destruct (log_pow val _ Ky L eq_refl) as [P B]. cbn [fst snd] in P, B. split; [apply WE; auto; try discriminate; lia|]. conjs; try reflexivity; intros; contradiction || eauto.
      * split; [apply TB; auto; discriminate|]. conjs; try reflexivity; intros; contradiction || eauto.
    + injection HR as <-. split; [apply TB; auto; discriminate|]. destruct (const_of z); conjs; try reflexivity; intros; contradiction || eauto.
  - destruct (const_of y) as [val|] eqn:Cy.
    + destruct HN as [HN|]; [|discriminate]. rewrite HN. specialize (Ky _ eq_refl). destruct (val =? 0); [discriminate HR|].
      destruct (log_ok val Ky) as (l & ex & L). rewrite L in HR. cbn [bind] in HR. destruct (Z.eqb_spec l 1) as [->|].
      * destruct (log_pow val _ Ky L eq_refl) as [P B]. cbn [fst snd] in P, B. rewrite ash_m1 in HR by lia. cbn [bind] in HR. injection HR as <-.
        split; [|conjs; try reflexivity; intros; contradiction || eauto]. cbn [wf]. conjs; auto; try discriminate. apply in64. rewrite <- P. rewrite in64 in Ky. unfold MINI, MAXI in *. assert (0 < val) by (rewrite P; lia). lia.
      * injection HR as <-. split; [apply TB; auto; discriminate|]. conjs; try reflexivity; intros; contradiction || eauto.
    + injection HR as <-. split; [apply TB; auto; discriminate|]. destruct (const_of z); conjs; try reflexivity; intros; contradiction || eauto.
  - unfold is in HR. injection HR as <-. destruct (const_of z) as [vz|] eqn:Cz.
    + destruct HN as [|HN]; [discriminate|]. rewrite HN. destruct (vz =? 0); (split; [auto; apply TB; auto; discriminate|]; conjs; auto; intros; contradiction || eauto).
    + destruct (const_of y) as [vy|] eqn:Cy; [destruct (vy =? 0)|]; (split; [auto; apply TB; auto; discriminate|]; conjs; auto; intros; contradiction || eauto).
  - unfold is in HR. injection HR as <-. destruct (const_of y) as [vy|] eqn:Cy.
    + destruct HN as [HN|]; [|discriminate]. rewrite HN. destruct (vy =? 0); (split; [auto; apply TB; auto; discriminate|]; conjs; auto; intros; contradiction || eauto).
    + split; [auto; apply TB; auto; discriminate|]. destruct (const_of z); conjs; auto; intros; contradiction || eauto.
  - injection HR as <-. destruct (const_of z) as [vz|] eqn:Cz.
    + destruct HN as [|HN]; [discriminate|]. destruct (Z.eqb_spec vz 0) as [->|]; cbn [negb]; conjs; auto; intros H; exfalso; apply H; exact I.
    + destruct (const_of y) as [vy|] eqn:Cy; [destruct (vy =? 0)|]; cbn [negb]; (split; [auto; cbn [wf tok]; conjs; auto; intros; exact I|]; conjs; auto; intros H; exfalso; apply H; exact I).
  - injection HR as <-. destruct (const_of z) as [vz|] eqn:Cz.
    + destruct HN as [|HN]; [discriminate|]. destruct (Z.eqb_spec vz 0) as [->|]; conjs; auto; try (intros H; exfalso; apply H; exact I).
      rewrite Cz. f_equal. destruct z as [v t| | |]; cbn in Cz; try discriminate. injection Cz as ->. cbn in Ez, Wz. subst t. destruct Wz as (_ & _ & Wz). destruct (Wz eq_refl); congruence.
    + destruct (const_of y) as [vy|] eqn:Cy; [destruct (vy =? 0)|]; (split; [auto; cbn [wf tok]; conjs; auto; intros; exact I|]; conjs; auto; intros H; exfalso; apply H; exact I).
  - injection HR as <-. split; [cbn [wf tok]; conjs; auto; intros; exact I|]. destruct (const_of z); conjs; auto; eauto; intros H; exfalso; apply H; exact I.
Qed.

Lemma unify_join : forall a b z y, unify a b = Some (z, y) -> ty_of z = join (ty_of a) (ty_of b) /\ ((exists s, ty_of z = TInt s) -> exists sa sb, ty_of a = TInt sa /\ ty_of b = TInt sb) /\ (ty_of z = TBool -> a = z /\ b = y).
Proof.
  intros a b z y H. unfold unify in H. destruct (ty_of a) as [sa|] eqn:Ea, (ty_of b) as [sb|] eqn:Eb; try discriminate H; cbn [join].
  - destruct (Z.eqb_spec sa sb) as [->|]; [|destruct (Z.ltb_spec sb sa)]; injection H as <- <-; rewrite ?Convert_ty, ?Ea; (split; [f_equal; lia|]; split; [eauto | discriminate]).
  - injection H as <- <-. rewrite Ea. split; [reflexivity|]. split; [intros [? ?]; discriminate | auto].
Qed.
Lemma unify_ev : forall a b z y, wf a -> wf b -> unify a b = Some (z, y) ->
  (forall st, (forall v st', ev a st = Ok (v, st') -> okv (ty_of a) v = true) -> ev z st = ev a st) /\ (forall st, (forall v st', ev b st = Ok (v, st') -> okv (ty_of b) v = true) -> ev y st = ev b st).
Proof.
  intros a b z y Wa Wb H. pose proof (wf_ty _ Wa) as Ta. pose proof (wf_ty _ Wb) as Tb. unfold unify in H. destruct (ty_of a) as [sa|] eqn:Ea, (ty_of b) as [sb|] eqn:Eb; try discriminate H; cbn [tok] in *.
  - destruct (Z.eqb_spec sa sb) as [->|]; [|destruct (Z.ltb_spec sb sa)]; injection H as <- <-; split; intros st F; try reflexivity.
    + apply (ev_Convert b sb); auto. intros v st' E. apply okv_fits, (F v st' E).
    + apply (ev_Convert a sa); auto; [lia|]. intros v st' E. apply okv_fits, (F v st' E).
  - injection H as <- <-. auto.
Qed.

(** The nodes built for an expression compute its mathematical value and have its effects, wherever every value fits its type; they also have the
    right type, and are constant exactly when the expression is. *)
Lemma exact_at : forall e e', written e -> nozero e -> build e = Ok (Some e') -> holds_for e e'.
Proof.
  induction e as [z|b|i t|op a IHa b IHb]; intros e' HW HZ HB; unfold holds_for; cbn [build written nozero] in *.
  - destruct (C41_smallest z HW) as (s & E & S & F & M). rewrite E in HB. cbn [bind] in HB. injection HB as <-. pose proof (small_spec z s S F M) as SM. cbn [wf ty_of stype const_of cval ideal tok].
    rewrite SM. conjs; auto; try discriminate. intros st v st' H. injection H as <- <-. apply okv_fits. exact F.
  - injection HB as <-. cbn [wf ty_of stype const_of cval ideal tok]. conjs; auto.
    + apply in64. unfold MINI, MAXI. destruct b; cbn; lia.
    + intros _. destruct b; cbn; auto.
    + intros st v st' H. injection H as <- <-. destruct b; reflexivity.
  - injection HB as <-. cbn [wf ty_of stype const_of cval ideal tok]. conjs; auto.
    + intros st v st' H. destruct (bind_inv _ _ _ _ _ H) as ([x s1] & _ & H1). destruct (okv t x) eqn:E; [injection H1 as <- <-; exact E | discriminate H1].
    + intros st H. cbn [StrengthModel.ev]. destruct (leaf i t st) as [[v s1]|c| |]; cbn [bind] in *; try reflexivity. destruct (okv t v); [reflexivity | congruence].
  - destruct HW as (Wa & Wb & N1 & N2). destruct HZ as (Za & Zb & Z0).
    destruct (bind_inv _ _ _ _ _ HB) as (oa & Ea & HB1). destruct (bind_inv _ _ _ _ _ HB1) as (ob & Eb & HO). destruct oa as [a'|]; [|discriminate HO]. destruct ob as [b'|]; [|discriminate HO].
    destruct (IHa a' Wa Za Ea) as (Fa & Ta & Ca & Oa & Va). destruct (IHb b' Wb Zb Eb) as (Fb & Tb & Cb & Ob & Vb). clear IHa IHb HB HB1.
    assert (Qa : forall st, ideal leaf a st <> UB -> forall v st', ev a' st = Ok (v, st') -> okv (ty_of a') v = true). { intros st HU v st' E. rewrite Ta. rewrite (Va st HU) in E. exact (Oa _ _ _ E). }
    assert (Qb : forall st, ideal leaf b st <> UB -> forall v st', ev b' st = Ok (v, st') -> okv (ty_of b') v = true). { intros st HU v st' E. rewrite Tb. rewrite (Vb st HU) in E. exact (Ob _ _ _ E). }
    assert (NC : const_of a' = None \/ const_of b' = None -> holds_for (SBin op a b) e').
    { intros HN.
      assert (HZP : ~ zero_product op a' b').
      { intros [-> [K|K]]; destruct (Z0 eq_refl) as [Z1 Z2].
        - rewrite K in Ca. specialize (Z1 (eq_sym Ca)). rewrite <- Cb in Z1. destruct HN; congruence.
        - rewrite K in Cb. specialize (Z2 (eq_sym Cb)). rewrite <- Ca in Z2. destruct HN; congruence. }
      pose proof (same_at op a' b') as SAME. unfold plain in SAME. unfold Op in HO, SAME.
      assert (HO' : match unify a' b' with None => Ok None | Some (z, y) => reduce op z y end = Ok (Some e')) by (destruct (const_of a'), (const_of b'); try (destruct HN; discriminate); exact HO).
      destruct (unify a' b') as [[z y]|] eqn:U; [|discriminate HO']. specialize (SAME _ e' Fa Fb HN HZP eq_refl HO). clear HO.
      destruct (unify_spec _ _ _ _ U) as (Cz & Cy & TT & WW). destruct (WW Fa Fb) as [Wz Wy]. clear WW.
      destruct (unify_join _ _ _ _ U) as (J & JI & JB). destruct (unify_ev _ _ _ _ Fa Fb U) as [UA UBv].
      assert (HZP' : ~ zero_product op z y) by (unfold zero_product in *; rewrite Cz, Cy; exact HZP).
      destruct (reduce_shape op z y e' Wz Wy TT ltac:(rewrite Cz, Cy; exact HN) HZP' HO') as (We & Te & LT & NT & Ce).
      assert (CV : const_of e' = cval (SBin op a b)).
      { rewrite Ce, Cz. cbn [cval]. rewrite <- Ca, <- Cb. destruct (const_of a'); [|reflexivity]. destruct (const_of b'); [destruct HN; discriminate | reflexivity]. }
      assert (SD : forall st, ideal leaf (SBin op a b) st <> UB -> ideal leaf a st <> UB).
      { intros st HU X. apply HU. destruct op; cbn [ideal]; rewrite X; reflexivity. }
      assert (LG : {logical op} + {~ logical op}) by (destruct op; cbn [logical]; auto). destruct LG as [LG|LG].
      - assert (ST : stype (SBin op a b) = TBool) by (destruct op; try contradiction; reflexivity). specialize (LT LG).
        assert (TE : ty_of e' = TBool) by (rewrite Te; destruct op; try contradiction; auto).
        assert (IV : forall st v st', ideal leaf (SBin op a b) st = Ok (v, st') -> v = 0 \/ v = 1).
        { intros st v st' H. destruct op; try contradiction.
          - destruct (JB LT) as [-> ->]. cbn [ideal] in H. destruct (bind_inv _ _ _ _ _ H) as ([x s1] & _ & H1). destruct (x =? 0); [injection H1 as <- <-; auto|]. specialize (Ob _ _ _ H1). rewrite <- Tb, <- TT, LT in Ob. cbn [okv] in Ob. lia.
          - destruct (JB LT) as [-> ->]. cbn [ideal] in H. destruct (bind_inv _ _ _ _ _ H) as ([x s1] & _ & H1). destruct (x =? 0); [|injection H1 as <- <-; auto]. specialize (Ob _ _ _ H1). rewrite <- Tb, <- TT, LT in Ob. cbn [okv] in Ob. lia.
          - rewrite ideal_bin in H by (intros [|]; discriminate). destruct (bind_inv _ _ _ _ _ H) as ([x s1] & _ & H1). destruct (bind_inv _ _ _ _ _ H1) as ([w s2] & _ & H2). cbn [mathop] in H2.
            destruct (okv _ _ && limit _ x w); [|discriminate H2]. injection H2 as <- <-. destruct (holds r x w); cbn; auto. }
        unfold holds_for. rewrite ST. conjs; auto.
        + intros st v st' H. specialize (IV _ _ _ H). cbn [okv]. lia.
        + intros st HU. specialize (SD st HU). pose proof (UA st (Qa st SD)) as E1. rewrite (Va st SD) in E1.
          assert (PV : ev (Bin op z y match op with Rel _ => TBool | _ => ty_of z end) st = ideal leaf (SBin op a b) st); [|rewrite <- PV in HU |- *; apply SAME; exact HU].
          destruct op; try contradiction.
          * cbn [StrengthModel.ev ideal] in *. rewrite E1. destruct (ideal leaf a st) as [[x s1]|c| |]; cbn [bind] in *; try reflexivity. destruct (x =? 0); [reflexivity|]. rewrite (UBv s1 (Qb s1 HU)), (Vb s1 HU).
            destruct (ideal leaf b s1) as [[w s2]|c| |] eqn:Ei; cbn [bind]; try reflexivity. destruct (JB LT) as [-> ->]. specialize (Ob _ _ _ Ei). rewrite <- Tb, <- TT, LT in Ob. cbn [okv] in Ob. assert (W : w = 0 \/ w = 1) by lia. destruct W as [-> | ->]; reflexivity.
          * cbn [StrengthModel.ev ideal] in *. rewrite E1. destruct (ideal leaf a st) as [[x s1]|c| |]; cbn [bind] in *; try reflexivity. destruct (x =? 0); [|reflexivity]. rewrite (UBv s1 (Qb s1 HU)), (Vb s1 HU).
            destruct (ideal leaf b s1) as [[w s2]|c| |] eqn:Ei; cbn [bind]; try reflexivity. destruct (JB LT) as [-> ->]. specialize (Ob _ _ _ Ei). rewrite <- Tb, <- TT, LT in Ob. cbn [okv] in Ob. assert (W : w = 0 \/ w = 1) by lia. destruct W as [-> | ->]; reflexivity.
          * rewrite ideal_bin in * by (intros [|]; discriminate). rewrite ev_bin by (intros [|]; discriminate). rewrite E1. destruct (ideal leaf a st) as [[x s1]|c| |]; cbn [bind] in *; try reflexivity.
            assert (UB' : ideal leaf b s1 <> UB) by (intros X; rewrite X in HU; apply HU; reflexivity). rewrite (UBv s1 (Qb s1 UB')), (Vb s1 UB'). destruct (ideal leaf b s1) as [[w s2]|c| |]; cbn [bind] in *; try reflexivity.
            cbn [mathop limit stype okv] in *. rewrite andb_true_r in *. cbn [apply bind]. destruct (holds r x w); reflexivity.
      - destruct (NT LG) as [s Hs]. assert (NL : ~ (op = AndOp \/ op = OrOp)) by (intros [-> | ->]; apply LG; exact I).
        assert (TO : (match op with Rel _ => TBool | _ => ty_of z end) = TInt s) by (rewrite Hs; destruct op; try reflexivity; exfalso; apply LG; exact I).
        destruct (JI (ex_intro _ s Hs)) as (sa & sb & Esa & Esb). rewrite Esa, Esb in J. cbn [join] in J. rewrite Hs in J. injection J as J.
        assert (ST : stype (SBin op a b) = TInt s). { rewrite stype_bin by exact LG. rewrite <- Ca, <- Cb, <- Ta, <- Tb, Esa, Esb. cbn [join]. rewrite <- J. destruct (const_of a'), (const_of b'); try reflexivity. destruct HN; discriminate. }
        pose proof (wf_ty _ Wz) as Sz. rewrite Hs in Sz. cbn [tok] in Sz. pose proof (wf_ty _ Fa) as Sa. rewrite Esa in Sa. cbn [tok] in Sa. pose proof (wf_ty _ Fb) as Sb. rewrite Esb in Sb. cbn [tok] in Sb.
        unfold holds_for. rewrite ST. conjs; auto.
        + rewrite Te. exact TO.
        + intros st v st' H. rewrite ideal_bin in H by exact NL. destruct (bind_inv _ _ _ _ _ H) as ([x s1] & _ & H1). destruct (bind_inv _ _ _ _ _ H1) as ([w s2] & _ & H2). destruct (mathop op x w) as [u|]; [|discriminate H2]. rewrite ST in H2.
          destruct (okv (TInt s) u) eqn:OK; cbn [andb] in H2; [|discriminate H2]. destruct (limit op x w); [|discriminate H2]. injection H2 as <- <-. exact OK.
        + intros st HU. specialize (SD st HU). pose proof (UA st (Qa st SD)) as E1. rewrite (Va st SD) in E1.
          assert (PV : ev (Bin op z y match op with Rel _ => TBool | _ => ty_of z end) st = ideal leaf (SBin op a b) st); [|rewrite <- PV in HU |- *; apply SAME; exact HU].
          rewrite ideal_bin in * by exact NL. rewrite ev_bin by exact NL. rewrite E1. destruct (ideal leaf a st) as [[x s1]|c| |] eqn:Ei1; cbn [bind] in *; try reflexivity.
          assert (UB' : ideal leaf b s1 <> UB) by (intros X; rewrite X in HU; apply HU; reflexivity). rewrite (UBv s1 (Qb s1 UB')), (Vb s1 UB'). destruct (ideal leaf b s1) as [[w s2]|c| |] eqn:Ei2; cbn [bind] in *; try reflexivity.
          destruct (mathop op x w) as [v|] eqn:M; [|congruence]. rewrite ST in *. destruct (okv (TInt s) v) eqn:OK; cbn [andb] in *; [|congruence]. destruct (limit op x w) eqn:LM; [|congruence].
          rewrite Hs. rewrite (apply_math op s x w v); auto.
          * specialize (Oa _ _ _ Ei1). rewrite <- Ta, Esa in Oa. apply okv_fits in Oa. apply (fits_mono sa s); [unfold int_size in *; lia | exact Oa].
          * specialize (Ob _ _ _ Ei2). rewrite <- Tb, Esb in Ob. apply okv_fits in Ob. apply (fits_mono sb s); [unfold int_size in *; lia | exact Ob].
          * apply okv_fits, OK. }
    destruct (const_of a') as [x|] eqn:Kx; [destruct (const_of b') as [y|] eqn:Ky|].
    + (* both constant *)
      pose proof (wf_const _ Fa _ Kx) as Ix. pose proof (wf_const _ Fb _ Ky) as Iy.
      assert (EA : forall st, ideal leaf a st <> UB -> ideal leaf a st = Ok (x, st)) by (intros st HU; rewrite <- (Va st HU); apply const_ev; exact Kx).
      assert (EB : forall st, ideal leaf b st <> UB -> ideal leaf b st = Ok (y, st)) by (intros st HU; rewrite <- (Vb st HU); apply const_ev; exact Ky).
      unfold Op in HO. rewrite Kx, Ky in HO.
      assert (LG : {logical op} + {~ logical op}) by (destruct op; cbn [logical]; auto). destruct LG as [LG|LG].
      * assert (R : exists v, e' = Const v TBool /\ mathop op x y = Some v /\ (v = 0 \/ v = 1) /\ stype (SBin op a b) = TBool /\ ((op = AndOp \/ op = OrOp) -> (x = 0 \/ x = 1) /\ (y = 0 \/ y = 1))).
        { unfold ConstOp in HO. destruct op; try contradiction; destruct (ty_of a') eqn:Ea', (ty_of b') eqn:Eb'; try discriminate HO.
          - assert (Bx : x = 0 \/ x = 1) by (destruct a'; cbn in Kx; try discriminate; injection Kx as ->; cbn in Fa, Ea'; subst; tauto).
            assert (By : y = 0 \/ y = 1) by (destruct b'; cbn in Ky; try discriminate; injection Ky as ->; cbn in Fb, Eb'; subst; tauto).
            injection HO as <-. eexists. split; [reflexivity|]. cbn [mathop stype]. destruct Bx as [-> | ->], By as [-> | ->]; cbn; auto 10.
          - assert (Bx : x = 0 \/ x = 1) by (destruct a'; cbn in Kx; try discriminate; injection Kx as ->; cbn in Fa, Ea'; subst; tauto).
            assert (By : y = 0 \/ y = 1) by (destruct b'; cbn in Ky; try discriminate; injection Ky as ->; cbn in Fb, Eb'; subst; tauto).
            injection HO as <-. eexists. split; [reflexivity|]. cbn [mathop stype]. destruct Bx as [-> | ->], By as [-> | ->]; cbn; auto 10.
          - injection HO as <-. eexists. split; [reflexivity|]. cbn [mathop stype]. rewrite cmp_holds. conjs; auto; [destruct (holds r x y); cbn; auto | intros [|]; discriminate]. }
        destruct R as (v & -> & M & B & ST & BB).
        assert (EI : forall st, ideal leaf (SBin op a b) st <> UB -> ideal leaf (SBin op a b) st = Ok (v, st)).
        { intros st HU. destruct op; try contradiction.
          - cbn [ideal] in *. destruct (BB (or_introl eq_refl)) as [Bx By]. assert (UA : ideal leaf a st <> UB) by (intros X; rewrite X in HU; apply HU; reflexivity). rewrite (EA st UA) in *. cbn [bind mathop] in *. injection M as <-.
            destruct (x =? 0); [reflexivity|]. apply EB. exact HU.
          - cbn [ideal] in *. destruct (BB (or_intror eq_refl)) as [Bx By]. assert (UA : ideal leaf a st <> UB) by (intros X; rewrite X in HU; apply HU; reflexivity). rewrite (EA st UA) in *. cbn [bind mathop] in *. injection M as <-.
            destruct (x =? 0); [apply EB; exact HU | reflexivity].
          - rewrite ideal_bin in * by (intros [|]; discriminate). assert (UA : ideal leaf a st <> UB) by (intros X; rewrite X in HU; apply HU; reflexivity). rewrite (EA st UA) in *. cbn [bind] in *.
            assert (UB' : ideal leaf b st <> UB) by (intros X; rewrite X in HU; apply HU; reflexivity). rewrite (EB st UB') in *. cbn [bind] in *. rewrite M in *. destruct (okv _ v && limit _ x y); [reflexivity | congruence]. }
        rewrite ST. cbn [wf ty_of const_of cval tok]. rewrite <- Ca, <- Cb. conjs; auto.
        -- apply in64. unfold MINI, MAXI. lia.
        -- intros st v' st' H. rewrite EI in H by congruence. injection H as <- <-. cbn [okv]. lia.
        -- intros st HU. rewrite (EI st HU). reflexivity.
      * destruct (fold_math _ _ _ _ _ _ Ix Iy HO LG) as (v & M & -> & S & I). assert (NL : ~ (op = AndOp \/ op = OrOp)) by (intros [-> | ->]; apply LG; exact Logic.I).
        assert (ST : stype (SBin op a b) = TInt (small v)) by (rewrite stype_bin by exact LG; rewrite <- Ca, <- Cb, M; reflexivity).
        assert (EI : forall st, ideal leaf (SBin op a b) st <> UB -> ideal leaf (SBin op a b) st = Ok (v, st) /\ okv (TInt (small v)) v = true).
        { intros st HU. rewrite ideal_bin in * by exact NL. assert (UA : ideal leaf a st <> UB) by (intros X; rewrite X in HU; apply HU; reflexivity). rewrite (EA st UA) in *. cbn [bind] in *.
          assert (UB' : ideal leaf b st <> UB) by (intros X; rewrite X in HU; apply HU; reflexivity). rewrite (EB st UB') in *. cbn [bind] in *. rewrite M in *. rewrite ST in *. destruct (okv _ v) eqn:OK; cbn [andb] in *; [|congruence]. destruct (limit op x y); [auto | congruence]. }
        rewrite ST. cbn [wf ty_of const_of cval tok]. rewrite <- Ca, <- Cb. conjs; auto; try discriminate.
        -- intros st v' st' H. destruct (EI st ltac:(congruence)) as [H1 H2]. rewrite H1 in H. injection H as <- <-. exact H2.
        -- intros st HU. destruct (EI st HU) as [-> _]. reflexivity.
    + apply NC. auto.
    + apply NC. auto.
Qed.

(** Finding: a product with the constant 0 is replaced by 0 even if evaluating the other operand has effects: the call in f() * 0 is dropped. *)
Definition counter : nat -> ty -> Z -> res (Z * Z) := fun _ _ st => Ok (7, st + 1).
End Meaning.

Theorem C40_same : forall (St : Type) (leaf : nat -> ty -> St -> res (Z * St)), booleans leaf -> forall op z y p e, wf z -> wf y -> (const_of z = None \/ const_of y = None) -> ~ zero_product op z y ->
  plain op z y = Some p -> Op op z y = Ok (Some e) -> forall st, ev St leaf p st <> UB -> ev St leaf e st = ev St leaf p st.
Proof. intros St leaf. exact (same_at leaf). Qed.
Print Assumptions C40_same.
Theorem C40_exact : forall (St : Type) (leaf : nat -> ty -> St -> res (Z * St)), booleans leaf -> forall e e', written e -> nozero e -> build e = Ok (Some e') ->
  ty_of e' = stype e /\ const_of e' = cval e /\ forall st, ideal leaf e st <> UB -> ev St leaf e' st = ideal leaf e st.
Proof. intros St leaf Hl e e' H1 H2 H3. destruct (exact_at leaf Hl e e' H1 H2 H3) as (_ & A & B & _ & C). auto. Qed.
Print Assumptions C40_exact.
Definition sample : source := SBin Plus (SBin Times (SLeaf 0 (TInt 2)) (SLit 8)) (SBin Modulo (SBin Divide (SLeaf 1 (TInt 4)) (SLit 4)) (SLit 16)).
Definition sample_leaf : nat -> ty -> Z -> res (Z * Z) := fun i _ st => Ok ((if (i =? 0)%nat then -5 else -1001), st + 1).
Example C40_sample : build sample = Ok (Some (Bin Plus (Conv (Bin Shift (Leaf 0 (TInt 2)) (Const 3 (TInt 1)) (TInt 2)) (TInt 4))
      (Bin Mask (Bin Shift (Leaf 1 (TInt 4)) (Const (-2) (TInt 1)) (TInt 4)) (Const (-16) (TInt 4)) (TInt 4)) (TInt 4))) /\
  written sample /\ nozero sample /\ ideal sample_leaf sample 0 = Ok (-35, 2).
Proof.
  conjs; try reflexivity.
  - cbn [written sample tok]. unfold int_size, in_int. change (2 ^ (64 - 1)) with 9223372036854775808. conjs; try lia; discriminate.
  - cbn [nozero sample cval]. conjs; auto; intros; try discriminate; split; discriminate.
Qed.
Theorem C40_zero_refuted : exists e', build (SBin Times (SLeaf 0 (TInt 4)) (SLit 0)) = Ok (Some e') /\ ev Z counter e' 0 = Ok (0, 0) /\ ideal counter (SBin Times (SLeaf 0 (TInt 4)) (SLit 0)) 0 = Ok (0, 1).
Proof. eexists. split; [reflexivity|]. split; reflexivity. Qed.
Print Assumptions C40_zero_refuted.
