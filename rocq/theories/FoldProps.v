(** C39: constant expressions are evaluated exactly or rejected. *)
From Verif Require Import Base ArithModel ArithSpec ArithProofs ArithProps LitModel LitProps OpsProps FoldModel.

(** ** Specification: the mathematical value of a constant expression *)
Fixpoint exact (e : cexpr) : option Z :=
  let two a b f := match exact a, exact b with Some x, Some y => f x y | _, _ => None end in
  match e with
  | Lit v => Some v
  | Neg a => option_map Z.opp (exact a)
  | Abs a => option_map Z.abs (exact a)
  | Add a b => two a b (fun x y => Some (x + y))
  | Sub a b => two a b (fun x y => Some (x - y))
  | Mul a b => two a b (fun x y => Some (x * y))
  | Div a b => two a b (fun x y => if y =? 0 then None else Some (x / y))
  | Mod a b => two a b (fun x y => if y =? 0 then None else Some (x mod y))
  | Ash a b => two a b (fun x n => Some (if n >=? 0 then x * 2 ^ n else x / 2 ^ (- n)))
  end.
(** Every literal fits 64 bits (OPS reports larger ones). *)
Fixpoint literals (e : cexpr) : Prop :=
  match e with
  | Lit v => in_int 64 v
  | Neg a | Abs a => literals a
  | Add a b | Sub a b | Mul a b | Div a b | Mod a b | Ash a b => literals a /\ literals b
  end.
Definition is_ash (e : cexpr) : Prop := match e with Ash _ _ => True | _ => False end.

(** ** Lemmas *)
Lemma in64 : forall v, in_int 64 v <-> MINI <= v <= MAXI.
Proof. intros. unfold in_int, MINI, MAXI. change (2 ^ (64 - 1)) with 9223372036854775808. lia. Qed.
Lemma typed_inv : forall v r, typed v = Ok r -> exists s, r = Val v s.
Proof. intros v r H. unfold typed in H. unfold bind in H. destruct (SetIntType v); try discriminate H. injection H as <-. eauto. Qed.
Lemma typed_of_Err : forall v n, typed v <> Ok (Err n).
Proof. intros v n H. destruct (typed_inv _ _ H) as [s E]. discriminate E. Qed.
Lemma typed_ok : forall v, in_int 64 v -> exists s, typed v = Ok (Val v s) /\ int_size s /\ fits s v /\ forall s', int_size s' -> fits s' v -> s <= s'.
Proof. intros v H. destruct (C41_smallest v H) as (s & E & H1). exists s. unfold typed. rewrite E. split; [reflexivity | exact H1]. Qed.
Definition good (v : Z) (r : res folded) : Prop := exists s, r = Ok (Val v s) /\ in_int 64 v /\ int_size s /\ fits s v /\ forall s', int_size s' -> fits s' v -> s <= s'.
Lemma typed_good : forall v, in_int 64 v -> good v (typed v).
Proof. intros v H. destruct (typed_ok v H) as (s & E & H1). exists s. tauto. Qed.
Lemma c64 : forall v, MINI <= v <= MAXI -> chk 64 v = Ok v.
Proof. intros v H. apply chk_ok, in64, H. Qed.
Lemma DIV_chk : forall x y, DIV_ (chk 64) x y = DIV_inline 64 x y.
Proof. reflexivity. Qed.
Lemma DIV_pos : forall arith x y, 0 < x <= MAXI -> 0 < y -> DIV_ arith x y = Ok (x / y).
Proof.
  intros arith x y Hx Hy. unfold DIV_. replace ((x >? 0) && (y >? 0)) with true by lia. unfold c_div. replace (y =? 0) with false by lia.
  pose proof (quot_bound x y ltac:(lia) ltac:(lia)). rewrite c64 by (unfold MINI; lia). rewrite quot_floor by lia. reflexivity.
Qed.
Lemma DIV_floor : forall x y q, DIV_ (chk 64) x y = Ok q -> y <> 0 -> q = x / y.
Proof.
  intros x y q H Hy. unfold DIV_ in H. destruct ((x >? 0) && (y >? 0)) eqn:E; [|exact (SYSTEM_DIV_floor _ _ _ H Hy)].
  destruct (c_div_inv _ _ _ _ H) as [_ ->]. apply quot_floor; lia.
Qed.
Lemma MOD_floor : forall x y q, MOD_ (chk 64) x y = Ok q -> y <> 0 -> q = x mod y.
Proof.
  intros x y q H Hy. unfold MOD_ in H. destruct ((x >? 0) && (y >? 0)) eqn:E; [|exact (SYSTEM_MOD_floor _ _ _ H Hy)].
  destruct (c_rem_inv _ _ _ _ H) as [_ ->]. apply rem_floor; lia.
Qed.
Lemma prod_le : forall a b, 0 < a -> 0 < b -> (b <=? MAXI / a) = (a * b <=? MAXI).
Proof.
  intros a b Ha Hb. pose proof (Z.div_mod MAXI a ltac:(lia)). pose proof (Z.mod_pos_bound MAXI a ltac:(lia)). generalize dependent (MAXI / a). generalize dependent (MAXI mod a).
  intros r Hr q Hq. apply Bool.eq_true_iff_eq. rewrite !Z.leb_le. split; intros; nia.
Qed.
Lemma MIN_div_UB : forall x, 0 < x <= MAXI -> DIV_ (chk 64) MINI x = UB.
Proof.
  intros x Hx. unfold DIV_. replace ((MINI >? 0) && (x >? 0)) with false by reflexivity. unfold SYSTEM_DIV_with.
  change (MINI =? 0) with false. change (MINI >=? 0) with false. cbn [andb]. replace (x >=? 0) with true by lia. unfold chk at 1.
  replace (in_intb 64 (x - MINI)) with false; [reflexivity|]. unfold in_intb, MINI. change (2 ^ (64 - 1)) with 9223372036854775808. lia.
Qed.

(** ** Single operations, under the C standard *)
(** Every operation but * with operands of opposite sign, DIV, MOD and ASH: the exact result with the smallest type, or an error when the exact
    result does not fit 64 bits. *)
Theorem C39_fold : forall x y, in_int 64 x -> in_int 64 y ->
  (forall r z, In (r, z) [(fold_neg (chk 64) x, - x); (fold_abs (chk 64) x, Z.abs x); (fold_plus (chk 64) x y, x + y); (fold_minus (chk 64) x y, x - y)] ->
     (in_int 64 z -> good z r) /\ (~ in_int 64 z -> exists n, r = Ok (Err n))) /\
  (0 <= x /\ 0 <= y \/ x <= 0 /\ y <= 0 -> (in_int 64 (x * y) -> good (x * y) (fold_times (chk 64) x y)) /\ (~ in_int 64 (x * y) -> fold_times (chk 64) x y = Ok (Err 204))).
Proof.
  intros x y Hx Hy. rewrite in64 in Hx, Hy. split.
  - intros r z Hin. rewrite in64. cbn [In] in Hin. destruct Hin as [E|[E|[E|[E|[]]]]]; injection E as <- <-.
    + unfold fold_neg. destruct (Z.eqb_spec x MINI) as [->|N]; [split; [unfold MINI, MAXI; lia | eauto]|].
      split; [|unfold MINI, MAXI in *; lia]. intros Hz. rewrite c64 by exact Hz. cbn [bind]. apply typed_good, in64, Hz.
    + unfold fold_abs. destruct (Z.eqb_spec x MINI) as [->|N]; [split; [unfold MINI, MAXI; lia | eauto]|].
      split; [|unfold MINI, MAXI in *; lia]. intros Hz. destruct (Z.ltb_spec x 0).
      * rewrite c64 by (unfold MINI, MAXI in *; lia). cbn [bind]. replace (- x) with (Z.abs x) by lia. apply typed_good, in64, Hz.
      * cbn [bind]. replace x with (Z.abs x) at 2 by lia. apply typed_good, in64, Hz.
    + unfold fold_plus, guarded. destruct (Z.geb_spec y 0) as [G|G].
      * rewrite c64 by (unfold MINI, MAXI in *; lia). cbn [bind any]. replace (y <? 0) with false by lia. cbn [bind any].
        destruct (Z.leb_spec x (MAXI - y)); cbn [bind].
        -- split; [|unfold MINI, MAXI in *; lia]. intros Hz. rewrite c64 by exact Hz. cbn [bind]. apply typed_good, in64, Hz.
        -- split; [unfold MINI, MAXI in *; lia | eauto].
      * replace (y <? 0) with true by lia. cbn [bind any]. rewrite c64 by (unfold MINI, MAXI in *; lia). cbn [bind any].
        destruct (Z.geb_spec x (MINI - y)); cbn [bind].
        -- split; [|unfold MINI, MAXI in *; lia]. intros Hz. rewrite c64 by exact Hz. cbn [bind]. apply typed_good, in64, Hz.
        -- split; [unfold MINI, MAXI in *; lia | eauto].
    + unfold fold_minus, guarded. destruct (Z.geb_spec y 0) as [G|G].
      * rewrite c64 by (unfold MINI, MAXI in *; lia). cbn [bind any]. replace (y <? 0) with false by lia. cbn [bind any].
        destruct (Z.geb_spec x (MINI + y)); cbn [bind].
        -- split; [|unfold MINI, MAXI in *; lia]. intros Hz. rewrite c64 by exact Hz. cbn [bind]. apply typed_good, in64, Hz.
        -- split; [unfold MINI, MAXI in *; lia | eauto].
      * replace (y <? 0) with true by lia. cbn [bind any]. rewrite c64 by (unfold MINI, MAXI in *; lia). cbn [bind any].
        destruct (Z.leb_spec x (MAXI + y)); cbn [bind].
        -- split; [|unfold MINI, MAXI in *; lia]. intros Hz. rewrite c64 by exact Hz. cbn [bind]. apply typed_good, in64, Hz.
        -- split; [unfold MINI, MAXI in *; lia | eauto].
  - intros Hs. rewrite !in64. unfold fold_times, times_ok, guarded. destruct (Z.eqb_spec x 0) as [->|X0]; [|destruct (Z.eqb_spec y 0) as [->|Y0]].
    + cbn [orb any bind]. rewrite Z.mul_0_l. split; [|unfold MINI, MAXI; lia]. intros _. rewrite c64 by (unfold MINI, MAXI; lia). cbn [bind]. apply typed_good, in64. unfold MINI, MAXI; lia.
    + cbn [orb any bind]. rewrite Z.mul_0_r. split; [|unfold MINI, MAXI; lia]. intros _. rewrite c64 by (unfold MINI, MAXI; lia). cbn [bind]. apply typed_good, in64. unfold MINI, MAXI; lia.
    + cbn [orb any bind]. destruct (Z.gtb_spec x 0) as [XP|XN]; [|assert (XL : x < 0) by lia; clear XN].
      * assert (YP : 0 < y) by lia. replace (y >? 0) with true by lia. cbn [andb]. rewrite DIV_pos by (unfold MAXI in *; lia). cbn [bind]. rewrite prod_le by lia.
        replace (y <? 0) with false by lia. replace (x <? 0) with false by lia. cbn [andb].
        destruct (Z.leb_spec (x * y) MAXI); cbn [bind any].
        -- split; [|assert (0 < x * y) by nia; unfold MINI; lia]. intros Hz. rewrite c64 by exact Hz. cbn [bind]. apply typed_good, in64, Hz.
        -- split; [lia | reflexivity].
      * assert (YN : y < 0) by lia. replace (y >? 0) with false by lia. replace (y <? 0) with true by lia. replace (x <? 0) with true by lia. cbn [andb any bind].
        destruct (Z.eqb_spec x MINI) as [->|XM]; cbn [negb andb any bind]; [split; [unfold MINI, MAXI; nia | reflexivity]|].
        destruct (Z.eqb_spec y MINI) as [->|YM]; cbn [negb andb any bind]; [split; [unfold MINI, MAXI; nia | reflexivity]|].
        rewrite !c64 by (unfold MINI, MAXI in *; lia). cbn [bind]. rewrite DIV_pos by (unfold MINI, MAXI in *; lia). cbn [bind]. rewrite prod_le by lia.
        replace (- y * - x) with (x * y) by lia.
        destruct (Z.leb_spec (x * y) MAXI); cbn [bind any].
        -- split; [|assert (0 < x * y) by nia; unfold MINI; lia]. intros Hz. rewrite c64 by exact Hz. cbn [bind]. apply typed_good, in64, Hz.
        -- split; [lia | reflexivity].
Qed.
Print Assumptions C39_fold.
Example C39_fold_example : fold_plus (chk 64) MAXI 1 = Ok (Err 206) /\ fold_minus (chk 64) MINI 1 = Ok (Err 207) /\ fold_times (chk 64) (-3037000500) (-3037000499) = Ok (Val 9223372033963249500 8).
Proof. repeat split. Qed.

Lemma div_range : forall x y, y <> 0 -> in_int 64 x -> in_int 64 y -> ~ (x = MINI /\ y = -1) -> in_int 64 (x / y).
Proof.
  intros x y Hn Hx Hy HM. rewrite in64 in *. pose proof (Z.div_mod x y Hn) as D.
  destruct (Z_lt_le_dec y 0) as [N|P].
  - pose proof (Z.mod_neg_bound x y N) as B. generalize dependent (x mod y). generalize dependent (x / y). intros q r D B. unfold MINI, MAXI in *.
    destruct (Z.eq_dec y (-1)) as [->|]; [lia|]. nia.
  - pose proof (Z.mod_pos_bound x y ltac:(lia)) as B. generalize dependent (x mod y). generalize dependent (x / y). intros q r D B. unfold MINI, MAXI in *. nia.
Qed.
(** DIV and MOD by a constant zero are rejected; otherwise the result is the floored one wherever the compiler's own division is defined (C01),
    which includes all operands of moderate size. *)
Theorem C39_div : forall x y, in_int 64 x -> in_int 64 y ->
  (y = 0 -> fold_div (chk 64) x y = Ok (Err 205) /\ fold_mod (chk 64) x y = Ok (Err 205)) /\
  (y <> 0 ->
     (fold_div (chk 64) x y = UB \/ good (x / y) (fold_div (chk 64) x y)) /\ (fold_mod (chk 64) x y = UB \/ good (x mod y) (fold_mod (chk 64) x y)) /\
     (MINI < x -> MINI < y -> Z.abs x + Z.abs y <= MAXI \/ (x < 0 <-> y < 0) -> good (x / y) (fold_div (chk 64) x y)) /\
     (MINI < x -> MINI < y -> good (x mod y) (fold_mod (chk 64) x y))).
Proof.
  intros x y Hx Hy. split; [intros ->; split; reflexivity|]. intros Hn.
  assert (NF : forall z, chk 64 z = Ok z \/ chk 64 z = UB) by (intros z; unfold chk; destruct (in_intb 64 z); auto).
  assert (DE : DIV_ (chk 64) x y = SYSTEM_DIV x y).
  { unfold DIV_. destruct ((x >? 0) && (y >? 0)) eqn:E; [|reflexivity]. unfold SYSTEM_DIV, SYSTEM_DIV_with. replace (x =? 0) with false by lia.
    replace (x >=? 0) with true by lia. replace (y >=? 0) with true by lia. reflexivity. }
  assert (ME : MOD_ (chk 64) x y = SYSTEM_MOD x y).
  { unfold MOD_. destruct ((x >? 0) && (y >? 0)) eqn:E; [|reflexivity]. unfold SYSTEM_MOD, SYSTEM_MOD_with. replace (x =? 0) with false by lia.
    replace (x >=? 0) with true by lia. replace (y >=? 0) with true by lia. reflexivity. }
  assert (Q : forall q, DIV_ (chk 64) x y = Ok q -> good (x / y) (fold_div (chk 64) x y)).
  { intros q Hq. unfold fold_div. replace (negb (y =? 0)) with true by lia. rewrite Hq. cbn [bind]. rewrite (DIV_floor _ _ _ Hq Hn). apply typed_good.
    apply div_range; auto. intros [-> ->]. vm_compute in Hq. discriminate Hq. }
  assert (M : forall q, MOD_ (chk 64) x y = Ok q -> good (x mod y) (fold_mod (chk 64) x y)).
  { intros q Hq. unfold fold_mod. replace (negb (y =? 0)) with true by lia. rewrite Hq. cbn [bind]. rewrite (MOD_floor _ _ _ Hq Hn). apply typed_good. clear - Hn Hx Hy. rewrite in64 in *.
    destruct (Z_lt_le_dec y 0); [pose proof (Z.mod_neg_bound x y ltac:(lia)) | pose proof (Z.mod_pos_bound x y ltac:(lia))]; unfold MINI, MAXI in *; lia. }
  assert (DU : SYSTEM_DIV x y = UB \/ exists q, SYSTEM_DIV x y = Ok q).
  { unfold SYSTEM_DIV, SYSTEM_DIV_with, c_div, bind, chk. repeat match goal with |- context [if ?b then _ else _] => destruct b end; eauto. }
  assert (MU : SYSTEM_MOD x y = UB \/ exists q, SYSTEM_MOD x y = Ok q).
  { unfold SYSTEM_MOD, SYSTEM_MOD_with, c_rem, bind, chk. repeat match goal with |- context [if ?b then _ else _] => destruct b end; eauto. }
  split; [|split; [|split]].
  - destruct DU as [U|[q U]]; rewrite <- DE in U; [left; unfold fold_div; replace (negb (y =? 0)) with true by lia; rewrite U; reflexivity | right; exact (Q q U)].
  - destruct MU as [U|[q U]]; rewrite <- ME in U; [left; unfold fold_mod; replace (negb (y =? 0)) with true by lia; rewrite U; reflexivity | right; exact (M q U)].
  - intros X Y S. assert (D : exists q, SYSTEM_DIV x y = Ok q).
    { apply (C01_div_defined_iff x y Hx Hy Hn). unfold min_int, max_int. change (2 ^ (64 - 1)) with 9223372036854775808. clear - X Y S Hn. unfold MINI, MAXI in *. lia. }
    destruct D as [q D]. apply (Q q). rewrite DE. exact D.
  - intros X Y. assert (D : exists q, SYSTEM_MOD x y = Ok q).
    { apply (C01_mod_defined_iff x y Hx Hy Hn). unfold min_int. change (2 ^ (64 - 1)) with 9223372036854775808. clear - X Y Hn. unfold MINI, MAXI in *. lia. }
    destruct D as [q D]. apply (M q). rewrite ME. exact D.
Qed.
Print Assumptions C39_div.
Example C39_div_example : fold_div (chk 64) (-7) 2 = Ok (Val (-4) 1) /\ fold_mod (chk 64) (-7) 2 = Ok (Val 1 1).
Proof. split; reflexivity. Qed.

(** ASH of constants: the exact value, or error 208 when the count exceeds 62 or the result has a magnitude above MAX. *)
Theorem C39_ash : forall lint x s n, in_int 64 x -> x <> MINI ->
  let z := if n >=? 0 then x * 2 ^ n else x / 2 ^ (- n) in
  (Z.abs n <= 62 /\ Z.abs z <= MAXI -> fold_ash (chk 64) lint x s n = Ok (Val z (Z.max lint s)) /\ in_int 64 z) /\
  (Z.abs n > 62 \/ Z.abs z > MAXI -> fold_ash (chk 64) lint x s n = Ok (Err 208)).
Proof.
  intros lint x s n Hx Hm z. unfold fold_ash. rewrite in64 in Hx.
  replace (if s <? lint then lint else s) with (Z.max lint s) by (destruct (Z.ltb_spec s lint); lia).
  destruct ((-62 >? n) || (n >? 62)) eqn:E1; [split; [lia | reflexivity]|].
  assert (AZ : z = if n >=? 0 then x * 2 ^ n else x / 2 ^ (- n)) by reflexivity. clearbody z.
  destruct (Z.geb_spec n 0) as [P|P].
  - assert (A : (if x <? 0 then chk 64 (- x) else Ok x) = Ok (Z.abs x)).
    { destruct (Z.ltb_spec x 0); [rewrite c64 by (unfold MINI, MAXI in *; lia)|]; f_equal; lia. }
    rewrite A. cbn [bind].
    assert (PB : 0 < 2 ^ n <= 2 ^ 62) by (split; [lia | apply Z.pow_le_mono_r; lia]). change (2 ^ 62) with 4611686018427387904 in PB.
    assert (S : ASH 1 n = Ok (2 ^ n)).
    { unfold ASH, ASHL. replace (n >=? 0) with true by lia. replace ((0 <=? n) && (n <? 64)) with true by lia. f_equal. rewrite Z.shiftl_mul_pow2, Z.mul_1_l by lia. apply wrap_s_id; [lia|]. apply in64. unfold MINI, MAXI. lia. }
    rewrite S. cbn [bind]. rewrite DIV_pos by (unfold MAXI; lia). cbn [bind].
    assert (ZA : Z.abs z = 2 ^ n * Z.abs x) by (rewrite AZ, Z.abs_mul; lia).
    destruct (Z.eq_dec x 0) as [->|X0].
    + rewrite Z.mul_0_l in AZ. subst z. replace (Z.abs 0 <=? MAXI / 2 ^ n) with true; [|symmetry; apply Z.leb_le; change (Z.abs 0) with 0; apply Z.div_pos; unfold MAXI; lia].
      rewrite Z.mul_0_l. split; [|unfold MAXI; lia]. intros _. split; [reflexivity|]. apply in64. unfold MINI, MAXI; lia.
    + rewrite prod_le by lia. rewrite <- ZA. rewrite <- AZ. destruct (Z.leb_spec (Z.abs z) MAXI).
      * split; [|lia]. intros _. assert (MINI <= z <= MAXI) by (unfold MINI, MAXI in *; lia). rewrite c64 by assumption. split; [reflexivity | apply in64; assumption].
      * split; [lia | reflexivity].
  - unfold ASH, ASHR. replace (n >=? 0) with false by lia. replace ((0 <=? - n) && (- n <? 64)) with true by lia. cbn [bind]. rewrite Z.shiftr_div_pow2 by lia. rewrite <- AZ.
    assert (R : MINI <= z <= MAXI).
    { assert (1 <= 2 ^ (- n)) by lia. pose proof (Z.div_mod x (2 ^ (- n)) ltac:(lia)) as D. pose proof (Z.mod_pos_bound x (2 ^ (- n)) ltac:(lia)) as B. rewrite <- AZ in D. clear - D B H Hx. generalize dependent (x mod 2 ^ (- n)). generalize dependent (2 ^ (- n)).
      intros p Hp r D B. unfold MINI, MAXI in *. nia. }
    split; [intros _; split; [reflexivity | apply in64; exact R]|]. intros [|A]; [lia|]. exfalso.
    assert (2 <= 2 ^ (- n)) by (change 2 with (2 ^ 1) at 1; apply Z.pow_le_mono_r; lia).
    pose proof (Z.div_mod x (2 ^ (- n)) ltac:(lia)) as D. pose proof (Z.mod_pos_bound x (2 ^ (- n)) ltac:(lia)) as B. rewrite <- AZ in D. clear - D B H A Hx R.
    generalize dependent (x mod 2 ^ (- n)). generalize dependent (2 ^ (- n)). intros p Hp r D B. unfold MINI, MAXI in *. nia.
Qed.
Print Assumptions C39_ash.
Example C39_ash_example : fold_ash (chk 64) 4 (-5) 1 (-1) = Ok (Val (-3) 4) /\ fold_ash (chk 64) 4 3 1 61 = Ok (Val 6917529027641081856 4) /\ fold_ash (chk 64) 4 3 1 62 = Ok (Err 208).
Proof. repeat split. Qed.

(** ** Opposite signs: a finding *)
(** The test for * divides MIN(INT64), and the compiler's own DIV (SYSTEM_DIV) overflows on that operand: folding the product of any positive and any
    negative constant is undefined.  Where overflow wraps around, the test fails instead: every product with a positive factor above 1 is rejected. *)
Theorem C39_times_refuted : forall x y, 0 < x <= MAXI -> MINI <= y < 0 ->
  fold_times (chk 64) x y = UB /\ fold_times (chk 64) y x = UB /\
  (2 <= x -> fold_times wrapping x y = Ok (Err 204) /\ fold_times wrapping y x = Ok (Err 204)).
Proof.
  intros x y Hx Hy.
  assert (T : forall arith, fold_times arith x y = (let* ok := (let* q := DIV_ arith MINI x in Ok (y >=? q)) in if ok then let* v := arith (x * y) in typed v else Ok (Err 204))).
  { intros arith. unfold fold_times, times_ok, guarded. replace ((x =? 0) || (y =? 0)) with false by lia. replace (x >? 0) with true by lia. replace (y >? 0) with false by lia. replace (y <? 0) with true by lia.
    replace (x <? 0) with false by lia. cbn [andb any bind]. destruct (DIV_ arith MINI x) as [q| | |]; cbn [bind any]; try reflexivity. destruct (y >=? q); reflexivity. }
  assert (T' : forall arith, fold_times arith y x = (let* ok := (let* q := DIV_ arith MINI x in Ok (y >=? q)) in if ok then let* v := arith (y * x) in typed v else Ok (Err 204))).
  { intros arith. unfold fold_times, times_ok, guarded. replace ((y =? 0) || (x =? 0)) with false by lia. replace (x >? 0) with true by lia. replace (y >? 0) with false by lia. replace (y <? 0) with true by lia.
    replace (x <? 0) with false by lia. cbn [andb any bind]. destruct (DIV_ arith MINI x) as [q| | |]; cbn [bind any]; try reflexivity. destruct (y >=? q); reflexivity. }
  rewrite !T, !T'. rewrite MIN_div_UB by exact Hx. split; [reflexivity|]. split; [reflexivity|]. intros H2.
  assert (D : exists q, DIV_ wrapping MINI x = Ok q /\ 0 <= q).
  { unfold DIV_. change ((MINI >? 0) && (x >? 0)) with false. unfold SYSTEM_DIV_with, wrapping. cbn [bind]. change (MINI =? 0) with false. change (MINI >=? 0) with false. cbn iota.
    replace (x >=? 0) with true by lia. cbn [bind].
    assert (W1 : wrap_s 64 (x - MINI) = x + MINI). { unfold wrap_s, MINI in *. change (2 ^ (64 - 1)) with 9223372036854775808. change (2 ^ 64) with 18446744073709551616. unfold MAXI in Hx. lia. }
    rewrite W1. rewrite (wrap_s_id 64 (x + MINI - 1)) by (try apply in64; unfold MINI, MAXI in *; lia).
    unfold c_div. replace (x =? 0) with false by lia.
    assert (Q : Z.quot (x + MINI - 1) x = - ((- (x + MINI - 1)) / x)).
    { rewrite <- (Z.opp_involutive (x + MINI - 1)) at 1. rewrite Z.quot_opp_l by lia. rewrite quot_floor by (unfold MINI, MAXI in *; lia). reflexivity. }
    rewrite Q.
    assert (B : 0 <= (- (x + MINI - 1)) / x <= 4611686018427387904).
    { split; [apply Z.div_pos; unfold MINI, MAXI in *; lia|]. apply Z.div_le_upper_bound; [lia|]. unfold MINI, MAXI in *. lia. }
    rewrite c64 by (unfold MINI, MAXI in *; lia). cbn [bind]. rewrite wrap_s_id by (try apply in64; unfold MINI, MAXI in *; lia). eexists. split; [reflexivity | lia]. }
  destruct D as (q & -> & Hq). cbn [bind]. replace (y >=? q) with false by lia. split; reflexivity.
Qed.
Print Assumptions C39_times_refuted.
Example C39_times_example : fold_times wrapping 2 (-3) = Ok (Err 204) /\ fold_times (chk 64) 2 (-3) = UB.
Proof. split; reflexivity. Qed.

(** Where overflow wraps around, a product that is accepted is nevertheless exact. *)
Theorem C39_times_wrapping : forall x y v s, in_int 64 x -> in_int 64 y -> fold_times wrapping x y = Ok (Val v s) -> v = x * y /\ in_int 64 (x * y).
Proof.
  intros x y v s Hx Hy H. rewrite in64 in Hx, Hy.
  assert (T : times_ok wrapping x y = Ok true -> in_int 64 (x * y)).
  { clear H. rewrite in64. intros H. destruct (Z.eq_dec (x * y) 0) as [Z0|NZ]; [rewrite Z0; unfold MINI, MAXI; lia|]. assert (X0 : x <> 0) by nia. assert (Y0 : y <> 0) by nia.
    destruct (Z_lt_le_dec 0 x) as [XP|XN]; destruct (Z_lt_le_dec 0 y) as [YP|YN].
    - unfold times_ok, guarded in H. replace ((x =? 0) || (y =? 0)) with false in H by lia. replace (x >? 0) with true in H by lia. replace (y >? 0) with true in H by lia. replace (x <? 0) with false in H by lia. replace (y <? 0) with false in H by lia. cbn [andb any bind] in H.
      rewrite DIV_pos in H by (unfold MAXI in *; lia). cbn [bind] in H. rewrite prod_le in H by lia. destruct (Z.leb_spec (x * y) MAXI); [unfold MINI; nia | discriminate H].
    - destruct (Z.eq_dec x 1) as [->|N1]; [unfold MINI, MAXI in *; lia|]. destruct (C39_times_refuted x y ltac:(lia) ltac:(lia)) as (_ & _ & R). destruct (R ltac:(lia)) as [R1 _]. exfalso.
      unfold fold_times in R1. rewrite H in R1. cbn [bind] in R1. unfold bind, wrapping in R1. destruct (typed_of_Err _ _ R1).
    - destruct (Z.eq_dec y 1) as [->|N1]; [unfold MINI, MAXI in *; lia|]. destruct (C39_times_refuted y x ltac:(lia) ltac:(lia)) as (_ & _ & R). destruct (R ltac:(lia)) as [_ R1]. exfalso.
      unfold fold_times in R1. rewrite H in R1. cbn [bind] in R1. unfold bind, wrapping in R1. destruct (typed_of_Err _ _ R1).
    - unfold times_ok, guarded in H. replace ((x =? 0) || (y =? 0)) with false in H by lia. replace (x >? 0) with false in H by lia. replace (y >? 0) with false in H by lia. replace (x <? 0) with true in H by lia. replace (y <? 0) with true in H by lia. cbn [andb any bind] in H.
      destruct (Z.eqb_spec x MINI); [discriminate H|]. destruct (Z.eqb_spec y MINI); [discriminate H|]. cbn [negb andb any bind] in H. unfold wrapping at 1 2 in H. cbn [bind] in H.
      rewrite !wrap_s_id in H by (try apply in64; unfold MINI, MAXI in *; lia). rewrite DIV_pos in H by (unfold MINI, MAXI in *; lia). cbn [bind] in H. rewrite prod_le in H by lia.
      replace (- y * - x) with (x * y) in H by lia. destruct (Z.leb_spec (x * y) MAXI); [unfold MINI; nia | discriminate H]. }
  unfold fold_times in H. destruct (bind_inv _ _ _ _ _ H) as (ok & Eok & H1). destruct ok; [|discriminate H1]. specialize (T Eok). destruct (bind_inv _ _ _ _ _ H1) as (w & Ew & H2).
  unfold wrapping in Ew. injection Ew as <-. destruct (typed_inv _ _ H2) as [s' E']. injection E' as -> ->. rewrite wrap_s_id by (lia || exact T). auto.
Qed.
Print Assumptions C39_times_wrapping.
Example C39_wrapping_example : fold_times wrapping 1 (-3) = Ok (Val (-3) 1).
Proof. reflexivity. Qed.

(** Finding: MIN DIV -1 is not rejected.  It is undefined in the compiler; where overflow wraps around, the folded quotient has the wrong sign. *)
Theorem C39_div_refuted : fold_div (chk 64) MINI (-1) = UB /\ fold_div wrapping MINI (-1) = Ok (Val MINI 8) /\ MINI / (-1) = MAXI + 1.
Proof. repeat split. Qed.
Print Assumptions C39_div_refuted.

(** ** Whole expressions *)
(** Whatever constant expression is accepted, the value is the mathematical one, fits 64 bits and has the smallest type (unless the last operation is ASH). *)
Theorem C39_exact : forall lint e v s, literals e -> fold (chk 64) lint e = Ok (Val v s) ->
  exact e = Some v /\ in_int 64 v /\ (~ is_ash e -> int_size s /\ fits s v /\ forall s', int_size s' -> fits s' v -> s <= s').
Proof.
  intros lint.
  assert (G : forall z (r : res folded) v s, good z r -> r = Ok (Val v s) -> v = z /\ in_int 64 v /\ int_size s /\ fits s v /\ forall s', int_size s' -> fits s' v -> s <= s').
  { intros z r v s (s0 & E & H) E'. rewrite E in E'. injection E' as <- <-. tauto. }
  assert (ON : forall r k v s, on r k = Ok (Val v s) -> exists x sx, r = Ok (Val x sx) /\ k x sx = Ok (Val v s)).
  { intros r k v s H. unfold on in H. destruct r as [[x sx|n]| | |]; cbn [bind] in H; try discriminate H. eauto. }
  induction e as [z|a IHa|a IHa|a IHa b IHb|a IHa b IHb|a IHa b IHb|a IHa b IHb|a IHa b IHb|a IHa b IHb]; intros v s HL HF; cbn [fold literals exact is_ash] in *.
  - destruct (G z _ v s (typed_good z HL) HF) as (-> & H1 & H2). tauto.
  - destruct (ON _ _ _ _ HF) as (x & sx & Ea & H). destruct (IHa x sx HL Ea) as (-> & Ix & _). cbn [option_map].
    destruct (C39_fold x x Ix Ix) as [F _]. destruct (F _ _ (or_introl eq_refl)) as [F1 F2]. destruct (in_intb 64 (- x)) eqn:B.
    + apply in_intb_iff in B. destruct (G _ _ _ _ (F1 B) H) as (-> & H2). tauto.
    + assert (NB : ~ in_int 64 (- x)) by (intros I; apply in_intb_iff in I; congruence). destruct (F2 NB) as [n E]. rewrite E in H. discriminate H.
  - destruct (ON _ _ _ _ HF) as (x & sx & Ea & H). destruct (IHa x sx HL Ea) as (-> & Ix & _). cbn [option_map].
    destruct (C39_fold x x Ix Ix) as [F _]. destruct (F _ _ (or_intror (or_introl eq_refl))) as [F1 F2]. destruct (in_intb 64 (Z.abs x)) eqn:B.
    + apply in_intb_iff in B. destruct (G _ _ _ _ (F1 B) H) as (-> & H2). tauto.
    + assert (NB : ~ in_int 64 (Z.abs x)) by (intros I; apply in_intb_iff in I; congruence). destruct (F2 NB) as [n E]. rewrite E in H. discriminate H.
  - destruct HL as [La Lb]. destruct (ON _ _ _ _ HF) as (x & sx & Ea & H'). destruct (ON _ _ _ _ H') as (y & sy & Eb & H). destruct (IHa x sx La Ea) as (-> & Ix & _). destruct (IHb y sy Lb Eb) as (-> & Iy & _).
    destruct (C39_fold x y Ix Iy) as [F _]. destruct (F _ _ (or_intror (or_intror (or_introl eq_refl)))) as [F1 F2]. destruct (in_intb 64 (x + y)) eqn:B.
    + apply in_intb_iff in B. destruct (G _ _ _ _ (F1 B) H) as (-> & H2). tauto.
    + assert (NB : ~ in_int 64 (x + y)) by (intros I; apply in_intb_iff in I; congruence). destruct (F2 NB) as [n E]. rewrite E in H. discriminate H.
  - destruct HL as [La Lb]. destruct (ON _ _ _ _ HF) as (x & sx & Ea & H'). destruct (ON _ _ _ _ H') as (y & sy & Eb & H). destruct (IHa x sx La Ea) as (-> & Ix & _). destruct (IHb y sy Lb Eb) as (-> & Iy & _).
    destruct (C39_fold x y Ix Iy) as [F _]. destruct (F _ _ (or_intror (or_intror (or_intror (or_introl eq_refl))))) as [F1 F2]. destruct (in_intb 64 (x - y)) eqn:B.
    + apply in_intb_iff in B. destruct (G _ _ _ _ (F1 B) H) as (-> & H2). tauto.
    + assert (NB : ~ in_int 64 (x - y)) by (intros I; apply in_intb_iff in I; congruence). destruct (F2 NB) as [n E]. rewrite E in H. discriminate H.
  - destruct HL as [La Lb]. destruct (ON _ _ _ _ HF) as (x & sx & Ea & H'). destruct (ON _ _ _ _ H') as (y & sy & Eb & H). destruct (IHa x sx La Ea) as (-> & Ix & _). destruct (IHb y sy Lb Eb) as (-> & Iy & _).
    assert (C : (0 <= x /\ 0 <= y \/ x <= 0 /\ y <= 0) \/ (0 < x /\ y < 0) \/ (x < 0 /\ 0 < y)) by lia. pose proof (proj1 (in64 x) Ix) as Ix'. pose proof (proj1 (in64 y) Iy) as Iy'.
    destruct C as [C|[[C1 C2]|[C1 C2]]].
    + destruct (C39_fold x y Ix Iy) as [_ F]. destruct (F C) as [F1 F2]. destruct (in_intb 64 (x * y)) eqn:B.
      * apply in_intb_iff in B. destruct (G _ _ _ _ (F1 B) H) as (-> & H2). tauto.
      * assert (NB : ~ in_int 64 (x * y)) by (intros I; apply in_intb_iff in I; congruence). rewrite (F2 NB) in H. discriminate H.
    + destruct (C39_times_refuted x y ltac:(lia) ltac:(lia)) as (R & _). rewrite R in H. discriminate H.
    + destruct (C39_times_refuted y x ltac:(lia) ltac:(lia)) as (_ & R & _). rewrite R in H. discriminate H.
  - destruct HL as [La Lb]. destruct (ON _ _ _ _ HF) as (x & sx & Ea & H'). destruct (ON _ _ _ _ H') as (y & sy & Eb & H). destruct (IHa x sx La Ea) as (-> & Ix & _). destruct (IHb y sy Lb Eb) as (-> & Iy & _).
    destruct (C39_div x y Ix Iy) as [D0 D1]. destruct (Z.eqb_spec y 0) as [E0|N0]; [destruct (D0 E0) as [R _]; rewrite R in H; discriminate H|].
    destruct (D1 N0) as ([U|U] & _); [rewrite U in H; discriminate H|]. destruct (G _ _ _ _ U H) as (-> & H2). tauto.
  - destruct HL as [La Lb]. destruct (ON _ _ _ _ HF) as (x & sx & Ea & H'). destruct (ON _ _ _ _ H') as (y & sy & Eb & H). destruct (IHa x sx La Ea) as (-> & Ix & _). destruct (IHb y sy Lb Eb) as (-> & Iy & _).
    destruct (C39_div x y Ix Iy) as [D0 D1]. destruct (Z.eqb_spec y 0) as [E0|N0]; [destruct (D0 E0) as [_ R]; rewrite R in H; discriminate H|].
    destruct (D1 N0) as (_ & [U|U] & _); [rewrite U in H; discriminate H|]. destruct (G _ _ _ _ U H) as (-> & H2). tauto.
  - destruct HL as [La Lb]. destruct (ON _ _ _ _ HF) as (x & sx & Ea & H'). destruct (ON _ _ _ _ H') as (n & sn & Eb & H). destruct (IHa x sx La Ea) as (-> & Ix & _). destruct (IHb n sn Lb Eb) as (-> & In & _).
    destruct (Z.eq_dec x MINI) as [->|N].
    + unfold fold_ash in H. destruct ((-62 >? n) || (n >? 62)) eqn:E1; [discriminate H|]. destruct (n >=? 0) eqn:E2; [cbv in H; discriminate H|].
      unfold ASH, ASHR in H. rewrite E2 in H. replace ((0 <=? - n) && (- n <? 64)) with true in H by lia. cbn [bind] in H. rewrite Z.shiftr_div_pow2 in H by lia. injection H as <- <-.
      split; [reflexivity|]. split; [|tauto]. apply in64. assert (1 <= 2 ^ (- n)) by lia. pose proof (Z.div_mod MINI (2 ^ (- n)) ltac:(lia)) as D. pose proof (Z.mod_pos_bound MINI (2 ^ (- n)) ltac:(lia)) as B.
      clear - D B H. generalize dependent (MINI mod 2 ^ (- n)). generalize dependent (MINI / 2 ^ (- n)). generalize dependent (2 ^ (- n)). unfold MINI, MAXI. intros. nia.
    + pose proof (C39_ash lint x sx n Ix N) as [A1 A2]. cbv zeta in A1, A2. destruct (Z_le_gt_dec (Z.abs n) 62) as [L|L]; [destruct (Z_le_gt_dec (Z.abs (if n >=? 0 then x * 2 ^ n else x / 2 ^ (- n))) MAXI) as [L2|L2]|].
      * destruct (A1 (conj L L2)) as [R I]. rewrite R in H. injection H as <- <-. tauto.
      * rewrite (A2 (or_intror L2)) in H. discriminate H.
      * rewrite (A2 (or_introl L)) in H. discriminate H.
Qed.
Print Assumptions C39_exact.
Example C39_exact_example : fold (chk 64) 4 (Add (Mul (Lit 100) (Lit 1000)) (Neg (Div (Neg (Lit 7)) (Lit 2)))) = Ok (Val 100004 4).
Proof. reflexivity. Qed.

(** Finding: the type of a folded ASH is not adjusted to its value: ASH(1, 40) is a LONGINT of 4 bytes with the value 2^40. *)
Theorem C39_ash_type_refuted : exists v, fold (chk 64) 4 (Ash (Lit 1) (Lit 40)) = Ok (Val v 4) /\ v = 2 ^ 40 /\ ~ fits 4 v.
Proof. exists 1099511627776. split; [reflexivity|]. split; [reflexivity|]. unfold fits. vm_compute. intros [_ H]. discriminate H. Qed.
Print Assumptions C39_ash_type_refuted.

(** ** Relations and conversions *)
Theorem C39_compare : forall x y, (fold_cmp REql x y = true <-> x = y) /\ (fold_cmp RNeq x y = true <-> x <> y) /\ (fold_cmp RLss x y = true <-> x < y) /\
  (fold_cmp RLeq x y = true <-> x <= y) /\ (fold_cmp RGtr x y = true <-> x > y) /\ (fold_cmp RGeq x y = true <-> x >= y).
Proof. intros x y. unfold fold_cmp, ConstCmp. destruct (Z.ltb_spec x y); [|destruct (Z.gtb_spec x y)]; repeat split; intros; try discriminate; try reflexivity; lia. Qed.
Print Assumptions C39_compare.

Theorem C39_convert : forall v sx to, in_int 64 v -> int_size sx -> int_size to -> fits sx v ->
  (fits to v -> convert_const v sx to = Ok (Val v to)) /\ (~ fits to v -> convert_const v sx to = Ok (Err 203)).
Proof.
  intros v sx to Hv Hs Ht Hf. unfold convert_const. destruct (C41_smallest v Hv) as (s & E & Is & Fs & Ms).
  destruct (Z.gtb_spec sx to).
  - rewrite E. cbn [bind]. destruct (Z.gtb_spec s to) as [L|L].
    + split; [|reflexivity]. intros F. specialize (Ms to Ht F). lia.
    + split; [reflexivity|]. intros NF. exfalso. apply NF. apply (fits_mono s to); [unfold int_size in *; lia | exact Fs].
  - split; [reflexivity|]. intros NF. exfalso. apply NF. apply (fits_mono sx to); [unfold int_size in *; lia | exact Hf].
Qed.
Print Assumptions C39_convert.
Example C39_convert_example : convert_const 127 8 1 = Ok (Val 127 1) /\ convert_const 128 8 1 = Ok (Err 203).
Proof. split; reflexivity. Qed.

(** ** Sets *)
(** The folded set has exactly the elements the operator prescribes, and its type is large enough for them. *)
Theorem C39_sets : forall op a b, in_uint 64 a -> in_uint 64 b -> let '(v, size) := fold_set op a b in
  in_uint (8 * size) v /\ (size = 4 \/ size = 8) /\
  forall i, member i v <-> match op with SPlus => member i a \/ member i b | SMinus => member i a /\ ~ member i b | STimes => member i a /\ member i b | SSlash => (member i a /\ ~ member i b) \/ (member i b /\ ~ member i a) end.
Proof.
  intros op a b Ha Hb. unfold fold_set.
  set (v := match op with SPlus => set_plus a b | SMinus => set_minus 64 a b | STimes => set_times a b | SSlash => set_slash a b end).
  assert (R : in_uint 64 v). { pose proof (set_ops_range 64 a b ltac:(lia) Ha Hb). unfold v. destruct op; tauto. }
  split; [|split].
  - unfold SetSetType. destruct (Z.eqb_spec (Z.shiftr v 32) 0) as [E|E]; [|exact R]. rewrite Z.shiftr_div_pow2 in E by lia. unfold in_uint in *. change (2 ^ (8 * 4)) with 4294967296. change (2 ^ 32) with 4294967296 in E. lia.
  - unfold SetSetType. destruct (Z.shiftr v 32 =? 0); auto.
  - intros i. unfold member. destruct (Z_lt_le_dec i 0) as [N|P]; [destruct op; lia|].
    pose proof (set_ops_bits 64 a b i ltac:(lia) Ha Hb P) as B. unfold v. pose proof (uint_bits_high 64 a i ltac:(lia) Ha) as HA. pose proof (uint_bits_high 64 b i ltac:(lia) Hb) as HB.
    unfold set_plus, set_times, set_slash, set_minus, set_compl in *.
    destruct op; rewrite ?Z.lor_spec, ?Z.land_spec, ?Z.lxor_spec, ?testbit_wrap_u, ?Z.lnot_spec by lia; destruct (Z.testbit a i), (Z.testbit b i); cbn [orb andb xorb negb]; rewrite ?andb_true_r, ?andb_false_r; try (intuition congruence).
    destruct (Z.ltb_spec i 64); [intuition congruence|]. specialize (HA ltac:(lia)). discriminate HA.
Qed.
Print Assumptions C39_sets.
Theorem C39_complement : forall a size, size = 4 \/ size = 8 -> in_uint (8 * size) a -> let '(v, s) := fold_compl a size in
  s = size /\ in_uint (8 * size) v /\ forall i, member i v <-> 0 <= i < 8 * size /\ ~ member i a.
Proof.
  intros a size Hs Ha. unfold fold_compl. assert (W : 0 < 8 * size) by lia.
  assert (E : (if size =? 8 then (set_compl 64 a, size) else (set_slash a 4294967295, size)) = (set_compl (8 * size) a, size)).
  { destruct Hs as [-> | ->]; cbn [Z.eqb Pos.eqb]; [|reflexivity]. f_equal. apply Z.bits_inj'. intros i Hi. unfold set_slash. rewrite set_compl_bits by lia. rewrite Z.lxor_spec.
    change 4294967295 with (all_ones 32). rewrite all_ones_bits by lia. change (8 * 4) with 32. destruct (Z.ltb_spec i 32); cbn [andb]; [destruct (Z.testbit a i); reflexivity|].
    rewrite (uint_bits_high 32 a i) by (lia || exact Ha). reflexivity. }
  rewrite E. split; [reflexivity|]. split.
  - unfold set_compl, in_uint, wrap_u. apply Z.mod_pos_bound. lia.
  - intros i. unfold member. destruct (Z_lt_le_dec i 0); [lia|]. rewrite set_compl_bits by lia. destruct (Z.ltb_spec i (8 * size)); destruct (Z.testbit a i); cbn [andb negb]; intuition (try congruence; try lia).
Qed.
Print Assumptions C39_complement.
Example C39_sets_example : fold_set SMinus (2 ^ 40 + 5) (2 ^ 40 + 1) = (4, 4) /\ fold_compl 1 4 = (4294967294, 4).
Proof. split; reflexivity. Qed.
