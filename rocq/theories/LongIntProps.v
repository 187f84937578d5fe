(** Arithmetic on long integers is exact (C76). *)
From Verif Require Import Base ArrZ OpsProps LongIntModel.
Ltac Zify.zify_post_hook ::= Z.to_euclidean_division_equations.

(** * Specification *)
(** The number an array of digits stands for, the most significant digit first. *)
Fixpoint value (w : list Z) : Z := match w with [] => 0 | d :: r => d * B ^ zlen r + value r end.
Definition digits (w : list Z) : Prop := Forall (fun d => 0 <= d < B) w.
(** [holds w x]: the array stands for [x]; the first element is spare, so the numbers below B^(n-1) have a place in n elements. *)
Definition holds (w : list Z) (x : Z) : Prop := digits w /\ 2 <= zlen w /\ ix w 0 = 0 /\ value w = x.

(** * Proofs *)
Lemma zlen_cons' : forall A (x : A) a, zlen (x :: a) = zlen a + 1.
Proof. intros. rewrite zlen_cons. lia. Qed.
Lemma Bpos : forall n, 0 <= n -> 0 < B ^ n.
Proof. intros. apply Z.pow_pos_nonneg; [unfold B; lia | assumption]. Qed.
Lemma Bsucc : forall n, 0 <= n -> B ^ (n + 1) = B * B ^ n.
Proof. intros. rewrite Z.pow_add_r by lia. rewrite Z.pow_1_r. ring. Qed.
Lemma value_app : forall a b, value (a ++ b) = value a * B ^ zlen b + value b.
Proof.
  induction a as [| d r IH]; intros b; cbn [app value]; [lia |]. rewrite IH, zlen_app, Z.pow_add_r by apply zlen_nonneg. ring.
Qed.
Lemma value_bound : forall w, digits w -> 0 <= value w < B ^ zlen w.
Proof.
  induction w as [| d r IH]; intros D; cbn [value]; [rewrite zlen_nil; cbn; lia |]. apply Forall_cons_iff in D as [D1 D2]. specialize (IH D2).
  rewrite zlen_cons', Bsucc by apply zlen_nonneg. pose proof (Bpos (zlen r) (zlen_nonneg _ r)). nia.
Qed.
Lemma value_zeros : forall a, Forall (fun d => d = 0) a -> value a = 0.
Proof. induction a as [| d r IH]; intros F; cbn [value]; [reflexivity |]. apply Forall_cons_iff in F as [-> F]. rewrite (IH F). lia. Qed.
Lemma holds_range : forall w x, holds w x -> 0 <= x < B ^ (zlen w - 1).
Proof.
  intros [| d r] x (D & N & T & <-); [rewrite zlen_nil in N; lia |]. rewrite ix_cons0 in T. subst d. cbn [value]. apply Forall_cons_iff in D as [_ D]. pose proof (value_bound r D).
  rewrite zlen_cons'. replace (zlen r + 1 - 1) with (zlen r) by lia. lia.
Qed.
Lemma holds_top : forall w, digits w -> 2 <= zlen w -> value w < B ^ (zlen w - 1) -> holds w (value w).
Proof.
  intros w D N L. split; [exact D |]. split; [exact N |]. split; [| reflexivity]. destruct w as [| d r]; [rewrite zlen_nil in N; lia |]. rewrite ix_cons0. cbn [value] in L. apply Forall_cons_iff in D as [D1 D2].
  pose proof (value_bound r D2). rewrite zlen_cons' in L. replace (zlen r + 1 - 1) with (zlen r) in L by lia. nia.
Qed.
Lemma rev_case : forall A (l : list A), l = [] \/ exists a x, l = a ++ [x].
Proof. intros A l. destruct (rev l) as [| x r] eqn:E; [left; rewrite <- (rev_involutive l), E; reflexivity | right; exists (rev r), x; rewrite <- (rev_involutive l), E; reflexivity]. Qed.

Lemma min_loop_spec : forall w f min, (Z.to_nat (zlen w - 1 - min) < f)%nat -> 1 <= min <= zlen w - 1 ->
  exists m, min_loop f w min (zlen w - 1) = Ok m /\ min <= m <= zlen w - 1 /\ (forall j, min <= j < m -> ix w j = 0) /\ (m < zlen w - 1 -> ix w m <> 0).
Proof.
  intros w. induction f as [| f IH]; intros min L M; [lia |]. cbn [min_loop]. destruct (min <? zlen w - 1) eqn:E.
  - rewrite getA_ix by lia. cbn [bind]. destruct (ix w min =? 0) eqn:Z0.
    + destruct (IH (min + 1)) as (m & R & A & C & D); [lia | lia |]. exists m. split; [exact R |]. split; [lia |]. split; [| exact D]. intros j J. destruct (Z.eq_dec j min) as [-> | K]; [lia | apply C; lia].
    + exists min. split; [reflexivity |]. split; [lia |]. split; [intros; lia | intros; lia].
  - exists min. split; [reflexivity |]. split; [lia |]. split; [intros; lia | intros; lia].
Qed.
Lemma MinDigit_spec : forall w, 2 <= zlen w -> exists m, MinDigit w = Ok m /\ 1 <= m <= zlen w - 1 /\ (forall j, 1 <= j < m -> ix w j = 0) /\ (m < zlen w - 1 -> ix w m <> 0).
Proof. intros w N. unfold MinDigit. apply min_loop_spec; [unfold zlen in *; lia | lia]. Qed.
(** The array is split before the digit preceding the first one that is not zero. *)
Lemma split_min : forall w x, holds w x -> exists m pre q, MinDigit w = Ok m /\ w = pre ++ 0 :: q /\ zlen pre = m - 1 /\ Forall (fun d => d = 0) pre /\ digits q /\ 1 <= zlen q /\ value q = x.
Proof.
  intros w x (D & N & T & V). destruct (MinDigit_spec w N) as (m & E & M & Z0 & _).
  assert (SP : w = firstn (Z.to_nat (m - 1)) w ++ skipn (Z.to_nat (m - 1)) w) by (symmetry; apply firstn_skipn).
  set (pre := firstn (Z.to_nat (m - 1)) w) in *. set (s := skipn (Z.to_nat (m - 1)) w) in *.
  assert (LP : zlen pre = m - 1) by (apply zlen_firstn; lia). assert (LS : zlen s = zlen w - (m - 1)) by (apply zlen_skipn; lia).
  assert (P0 : Forall (fun d => d = 0) pre).
  { apply Forall_forall. intros d I. apply In_nth with (d := 0) in I as (n & L & <-). replace n with (Z.to_nat (Z.of_nat n)) by lia. change (ix pre (Z.of_nat n) = 0). unfold zlen in LP. unfold pre. rewrite ix_firstn by lia. destruct (Z.eq_dec (Z.of_nat n) 0) as [-> | K]; [exact T | apply Z0; lia]. }
  destruct s as [| d q] eqn:ES; [rewrite zlen_nil in LS; lia |].
  assert (d = 0). { replace d with (ix w (m - 1)); [destruct (Z.eq_dec (m - 1) 0) as [-> | K]; [exact T | apply Z0; lia] |]. rewrite SP, ix_app, LP by lia. replace (m - 1 <? m - 1) with false by lia. replace (m - 1 - (m - 1)) with 0 by lia. apply ix_cons0. }
  subst d. rewrite SP in D, V. apply Forall_app in D as [_ D]. apply Forall_cons_iff in D as [_ D]. rewrite value_app, (value_zeros _ P0) in V. cbn [value] in V. rewrite zlen_cons in LS.
  exists m, pre, q. repeat split; try assumption; lia.
Qed.
Lemma zeros_digits : forall a, Forall (fun d => d = 0) a -> digits a.
Proof. intros a F. eapply Forall_impl; [| exact F]. intros d ->. unfold B. lia. Qed.

Section Sizes.
Variable sI sL : Z.
Hypothesis I16 : 16 <= sI.
Hypothesis L32 : 32 <= sL.
Lemma pow_I : 32768 <= 2 ^ (sI - 1).
Proof. change 32768 with (2 ^ 15). apply Z.pow_le_mono_r; lia. Qed.
Lemma pow_L : 2147483648 <= 2 ^ (sL - 1).
Proof. change 2147483648 with (2 ^ 31). apply Z.pow_le_mono_r; lia. Qed.
Lemma short_id : forall d, 0 <= d < B -> short sI d = d.
Proof. intros d H. unfold short. apply wrap_s_id; [lia |]. pose proof pow_I. unfold in_int, B in *. lia. Qed.
Lemma chk_id : forall x, 0 <= x < 2147483648 -> chk sL x = Ok x.
Proof. intros x H. unfold chk. replace (in_intb sL x) with true; [reflexivity |]. symmetry. apply in_intb_iff. pose proof pow_L. unfold in_int. lia. Qed.

Lemma mult_loop_spec : forall digit, 0 <= digit <= B -> forall f q pre post k, q <> [] -> (length q <= f)%nat -> digits q -> 0 <= k < B ->
  exists q' c, mult_loop sI sL f (pre ++ q ++ post) digit k (zlen (pre ++ q) - 1) (zlen pre - 1) = Ok (pre ++ q' ++ post) /\ digits q' /\ zlen q' = zlen q /\ 0 <= c /\ value q' + c * B ^ zlen q = value q * digit + k.
Proof.
  intros digit HD. induction f as [| f IH]; intros q pre post k NE L D K; [destruct q; [congruence | cbn in L; lia] |].
  destruct (rev_case _ q) as [-> | (a & x & ->)]; [congruence |]. apply Forall_app in D as [Da Dx]. apply Forall_cons_iff in Dx as [Dx _].
  cbn [mult_loop]. rewrite app_assoc. replace (zlen (pre ++ a ++ [x]) - 1) with (zlen (pre ++ a)) by (rewrite !zlen_app, zlen_cons, zlen_nil; lia). rewrite (app_assoc pre a [x]). rewrite <- (app_assoc (pre ++ a)). cbn [app].
  rewrite getA_at. cbn [bind]. assert (T : 0 <= x * digit <= (B - 1) * B) by nia. rewrite chk_id by (unfold B in *; nia). cbn [bind]. rewrite chk_id by (unfold B in *; nia). cbn [bind]. set (t := x * digit + k) in *.
  rewrite short_id by (unfold B; lia). rewrite setA_at. cbn [bind].
  assert (TB : 0 <= t / B < B) by (unfold t, B in *; nia).
  assert (TE : t = B * (t / B) + t mod B /\ 0 <= t mod B < B) by (unfold B; lia).
  destruct a as [| a0 a'].
  - rewrite app_nil_r. replace (zlen pre - 1 =? zlen pre - 1) with true by lia. exists [t mod B], (t / B). split; [reflexivity |]. split; [repeat constructor; lia |]. split; [reflexivity |]. split; [lia |]. cbn [app value]. rewrite zlen_cons, zlen_nil. change (B ^ (1 + 0)) with B. change (B ^ 0) with 1. unfold t in *. lia.
  - replace (zlen (pre ++ a0 :: a') - 1 =? zlen pre - 1) with false by (rewrite zlen_app, zlen_cons; pose proof (zlen_nonneg _ a'); lia).
    destruct (IH (a0 :: a') pre ((t mod B) :: post) (t / B)) as (q' & c & R & D' & L' & C' & V); [congruence | rewrite app_length in L; cbn in *; lia | exact Da | lia |].
    exists (q' ++ [t mod B]), c. split; [repeat rewrite <- app_assoc; exact R |]. split; [apply Forall_app; split; [exact D' | repeat constructor; lia] |]. split; [rewrite !zlen_app, L'; reflexivity |]. split; [exact C' |].
    rewrite !value_app, !zlen_app. set (va := value (a0 :: a')) in *. set (vq := value q') in *. cbn [value]. change (zlen [x]) with 1. change (zlen [t mod B]) with 1. change (zlen (@nil Z)) with 0. change (B ^ 1) with B. change (B ^ 0) with 1. rewrite Bsucc by apply zlen_nonneg. set (n := B ^ zlen (a0 :: a')) in *.
    transitivity (B * (vq + c * n) + t mod B); [ring |]. rewrite V. transitivity (B * (va * digit) + (B * (t / B) + t mod B)); [ring |]. rewrite <- (proj1 TE). unfold t. ring.
Qed.
(** The carry out of a leading zero is zero. *)
Lemma no_carry : forall q q' c v, digits q' -> zlen q' = zlen (0 :: q) -> 0 <= c -> value q' + c * B ^ zlen (0 :: q) = v -> v < B ^ zlen (0 :: q) -> c = 0 /\ value q' = v.
Proof.
  intros q q' c v D L C V H. pose proof (value_bound q' D). rewrite L in *. pose proof (Bpos (zlen (0 :: q)) (zlen_nonneg _ _)). assert (c = 0) by nia. subst c. split; [reflexivity | lia].
Qed.
Lemma value_lead : forall pre q, Forall (fun d => d = 0) pre -> value (pre ++ q) = value q.
Proof. intros pre q F. rewrite value_app, (value_zeros _ F). lia. Qed.

(** Multiplication by a digit and addition of another. *)
Theorem C76_multiply : forall w x digit k, holds w x -> 0 <= digit <= B -> 0 <= k < B ->
  exists w', MultDigit sI sL w digit k = Ok w' /\ zlen w' = zlen w /\ digits w' /\ value w' = x * digit + k /\ (x * digit + k < B ^ (zlen w - 1) -> holds w' (x * digit + k)).
Proof.
  intros w x digit k H HD HK. destruct (split_min w x H) as (m & pre & q & E & -> & LP & P0 & Dq & Lq & V).
  unfold MultDigit. rewrite E. cbn [bind].
  destruct (mult_loop_spec digit HD (S (length (pre ++ 0 :: q))) (0 :: q) pre [] k) as (q' & c & R & D' & L' & C' & V'); [congruence | rewrite app_length; cbn; lia | constructor; [unfold B; lia | exact Dq] | exact HK |].
  rewrite !app_nil_r in R. replace (m - 2) with (zlen pre - 1) by lia. rewrite R. exists (pre ++ q'). split; [reflexivity |].
  assert (LE : zlen (pre ++ q') = zlen (pre ++ 0 :: q)) by (rewrite !zlen_app, L'; reflexivity). split; [exact LE |].
  assert (DD : digits (pre ++ q')) by (apply Forall_app; split; [apply zeros_digits, P0 | exact D']). split; [exact DD |].
  pose proof (value_bound q Dq) as VB. cbn [value] in V'. rewrite V in V'. replace (0 * B ^ zlen q + x) with x in V' by lia.
  destruct (no_carry q q' c _ D' L' C' V') as [_ VE]. { rewrite zlen_cons', Bsucc by apply zlen_nonneg. pose proof (Bpos (zlen q) (zlen_nonneg _ q)). rewrite V in VB. nia. }
  assert (VV : value (pre ++ q') = x * digit + k) by (rewrite value_lead by exact P0; exact VE). split; [exact VV |].
  intros HB. rewrite <- VV. apply holds_top; [exact DD | rewrite LE; apply H | rewrite LE, VV; exact HB].
Qed.

Lemma add_loop_spec : forall f q pre post k, q <> [] -> (length q <= f)%nat -> digits q -> 0 <= k <= B * (B - 1) ->
  exists q' c, add_loop sI sL f (pre ++ q ++ post) k (zlen (pre ++ q) - 1) (zlen pre - 1) = Ok (pre ++ q' ++ post) /\ digits q' /\ zlen q' = zlen q /\ 0 <= c /\ value q' + c * B ^ zlen q = value q + k.
Proof.
  induction f as [| f IH]; intros q pre post k NE L D K; [destruct q; [congruence | cbn in L; lia] |].
  destruct (rev_case _ q) as [-> | (a & x & ->)]; [congruence |]. apply Forall_app in D as [Da Dx]. apply Forall_cons_iff in Dx as [Dx _].
  cbn [add_loop]. rewrite app_assoc. replace (zlen (pre ++ a ++ [x]) - 1) with (zlen (pre ++ a)) by (rewrite !zlen_app, zlen_cons, zlen_nil; lia). rewrite (app_assoc pre a [x]). rewrite <- (app_assoc (pre ++ a)). cbn [app].
  rewrite getA_at. cbn [bind]. rewrite chk_id by (unfold B in *; lia). cbn [bind]. set (t := x + k) in *.
  rewrite short_id by (unfold B; lia). rewrite setA_at. cbn [bind].
  assert (TB : 0 <= t / B <= B * (B - 1)) by (unfold t, B in *; lia).
  assert (TE : t = B * (t / B) + t mod B /\ 0 <= t mod B < B) by (unfold B; lia).
  destruct a as [| a0 a'].
  - rewrite app_nil_r. replace (zlen pre - 1 =? zlen pre - 1) with true by lia. exists [t mod B], (t / B). split; [reflexivity |]. split; [repeat constructor; lia |]. split; [reflexivity |]. split; [lia |]. cbn [app value]. rewrite zlen_cons, zlen_nil. change (B ^ (1 + 0)) with B. change (B ^ 0) with 1. unfold t in *. lia.
  - replace (zlen (pre ++ a0 :: a') - 1 =? zlen pre - 1) with false by (rewrite zlen_app, zlen_cons; pose proof (zlen_nonneg _ a'); lia).
    destruct (IH (a0 :: a') pre ((t mod B) :: post) (t / B)) as (q' & c & R & D' & L' & C' & V); [congruence | rewrite app_length in L; cbn in *; lia | exact Da | lia |].
    exists (q' ++ [t mod B]), c. split; [repeat rewrite <- app_assoc; exact R |]. split; [apply Forall_app; split; [exact D' | repeat constructor; lia] |]. split; [rewrite !zlen_app, L'; reflexivity |]. split; [exact C' |].
    rewrite !value_app, !zlen_app. set (va := value (a0 :: a')) in *. set (vq := value q') in *. cbn [value]. change (zlen [x]) with 1. change (zlen [t mod B]) with 1. change (zlen (@nil Z)) with 0. change (B ^ 1) with B. change (B ^ 0) with 1. rewrite Bsucc by apply zlen_nonneg. set (n := B ^ zlen (a0 :: a')) in *.
    transitivity (B * (vq + c * n) + t mod B); [ring |]. rewrite V. transitivity (B * (va) + (B * (t / B) + t mod B)); [ring |]. rewrite <- (proj1 TE). unfold t. ring.
Qed.
(** Addition of a number of up to two digits. *)
Theorem C76_add : forall w x k, holds w x -> 0 <= k <= B * (B - 1) ->
  exists w', AddDigit sI sL w k = Ok w' /\ zlen w' = zlen w /\ digits w' /\ value w' = x + k /\ (x + k < B ^ (zlen w - 1) -> holds w' (x + k)).
Proof.
  intros w x k H HK. destruct (split_min w x H) as (m & pre & q & E & -> & LP & P0 & Dq & Lq & V).
  unfold AddDigit. rewrite E. cbn [bind].
  destruct (add_loop_spec (S (length (pre ++ 0 :: q))) (0 :: q) pre [] k) as (q' & c & R & D' & L' & C' & V'); [congruence | rewrite app_length; cbn; lia | constructor; [unfold B; lia | exact Dq] | exact HK |].
  rewrite !app_nil_r in R. replace (m - 2) with (zlen pre - 1) by lia. rewrite R. exists (pre ++ q'). split; [reflexivity |].
  assert (LE : zlen (pre ++ q') = zlen (pre ++ 0 :: q)) by (rewrite !zlen_app, L'; reflexivity). split; [exact LE |].
  assert (DD : digits (pre ++ q')) by (apply Forall_app; split; [apply zeros_digits, P0 | exact D']). split; [exact DD |].
  pose proof (value_bound q Dq) as VB. cbn [value] in V'. rewrite V in V'. replace (0 * B ^ zlen q + x) with x in V' by lia.
  destruct (no_carry q q' c _ D' L' C' V') as [_ VE].
  { rewrite zlen_cons', Bsucc by apply zlen_nonneg. rewrite V in VB. assert (B <= B ^ zlen q). { replace (zlen q) with (zlen q - 1 + 1) by lia. rewrite Bsucc by lia. pose proof (Bpos (zlen q - 1) ltac:(lia)). unfold B in *. nia. } set (bn := B ^ zlen q) in *. clearbody bn. unfold B in *. lia. }
  assert (VV : value (pre ++ q') = x + k) by (rewrite value_lead by exact P0; exact VE). split; [exact VV |].
  intros HB. rewrite <- VV. apply holds_top; [exact DD | rewrite LE; apply H | rewrite LE, VV; exact HB].
Qed.

Lemma div_loop_spec : forall digit, 0 < digit <= 65536 -> forall q f pre r, q <> [] -> (length q <= f)%nat -> digits q -> 0 <= r < digit ->
  exists q' r', div_loop sI sL f (pre ++ q) digit r (zlen pre) (zlen (pre ++ q) - 1) = Ok (pre ++ q', r') /\ digits q' /\ zlen q' = zlen q /\ 0 <= r' < digit /\ value q' * digit + r' = r * B ^ zlen q + value q.
Proof.
  intros digit HD. induction q as [| x q IH]; intros f pre r NE L D R; [congruence |]. destruct f as [| f]; [cbn in L; lia |]. apply Forall_cons_iff in D as [Dx Dq].
  cbn [div_loop]. rewrite getA_at. cbn [bind]. rewrite chk_id by (unfold B; nia). cbn [bind]. assert (T : 0 <= r * B + x < digit * B) by nia. rewrite chk_id by (unfold B in *; lia). cbn [bind]. set (t := r * B + x) in *.
  assert (TQ : 0 <= t / digit < B). { split; [apply Z.div_pos; lia | apply Z.div_lt_upper_bound; [lia | exact (proj2 T)]]. }
  rewrite short_id by exact TQ. rewrite setA_at. cbn [bind]. pose proof (Z.mod_pos_bound t digit ltac:(lia)) as TM. pose proof (Z.div_mod t digit ltac:(lia)) as TE.
  destruct q as [| y q].
  - replace (zlen pre + 1 >? zlen (pre ++ [x]) - 1) with true by (rewrite zlen_app, zlen_cons, zlen_nil; lia). exists [t / digit], (t mod digit). split; [reflexivity |]. split; [repeat constructor; lia |]. split; [reflexivity |]. split; [lia |]. cbn [value]. rewrite zlen_cons, zlen_nil. change (B ^ (1 + 0)) with B. change (B ^ 0) with 1. unfold t in *. lia.
  - replace (zlen pre + 1 >? zlen (pre ++ x :: y :: q) - 1) with false by (rewrite zlen_app, !zlen_cons; pose proof (zlen_nonneg _ q); lia).
    destruct (IH f (pre ++ [t / digit]) (t mod digit)) as (q' & r' & E & D' & L' & R' & V); [congruence | cbn in *; lia | exact Dq | exact TM |].
    rewrite zlen_app, zlen_cons, zlen_nil, <- app_assoc in E. cbn [app] in E. rewrite !zlen_app in E. rewrite zlen_cons in E.
    exists (t / digit :: q'), r'. split; [rewrite zlen_app, zlen_cons; replace (zlen pre + 1) with (zlen pre + (1 + 0)) by lia; rewrite E, <- app_assoc; reflexivity |].
    split; [constructor; assumption |]. split; [rewrite !zlen_cons in *; lia |]. split; [exact R' |]. cbn [value]. rewrite L', (zlen_cons' _ x), Bsucc by apply zlen_nonneg.
    assert (X : (t / digit * B ^ zlen (y :: q) + value q') * digit + r' = (digit * (t / digit) + t mod digit) * B ^ zlen (y :: q) + value (y :: q)) by nia. rewrite X, <- TE. unfold t. cbn [value]. ring.
Qed.
(** Division by a digit, with the remainder. *)
Theorem C76_divide : forall w x digit, holds w x -> 0 < digit <= 65536 ->
  exists w', DivDigit sI sL w digit = Ok (w', x mod digit) /\ zlen w' = zlen w /\ holds w' (x / digit).
Proof.
  intros w x digit H HD. pose proof (holds_range w x H) as XR. destruct (split_min w x H) as (m & pre & q & E & EW & LP & P0 & Dq & Lq & V).
  unfold DivDigit. replace (digit <=? 0) with false by lia. rewrite E. cbn [bind].
  destruct (div_loop_spec digit HD (0 :: q) (S (length w)) pre 0) as (q' & r' & R & D' & L' & R' & V'); [congruence | rewrite EW, app_length; cbn; lia | constructor; [unfold B; lia | exact Dq] | lia |].
  rewrite <- EW in R. replace (m - 1) with (zlen pre) by lia. rewrite R. cbn [value] in V'. rewrite V in V'. replace (0 * B ^ zlen (0 :: q) + (0 * B ^ zlen q + x)) with x in V' by lia.
  assert (Q : value q' = x / digit /\ r' = x mod digit). { split; [apply Z.div_unique_pos with r'; lia | apply Z.mod_unique_pos with (value q'); lia]. } destruct Q as [Q1 Q2].
  exists (pre ++ q'). split; [rewrite Q2; reflexivity |]. assert (LE : zlen (pre ++ q') = zlen w) by (rewrite EW, !zlen_app, L'; reflexivity). split; [exact LE |].
  replace (x / digit) with (value (pre ++ q')) by (rewrite value_lead by exact P0; exact Q1). apply holds_top; [apply Forall_app; split; [apply zeros_digits, P0 | exact D'] | rewrite LE; apply H |].
  rewrite value_lead, Q1, LE by exact P0. apply Z.le_lt_trans with x; [| lia]. apply Z.div_le_upper_bound; nia.
Qed.

Lemma grow : forall a b d, 0 <= a -> 0 < b -> 0 < d -> a * b + 0 <= a * (b * d).
Proof. intros a b d A HB D. rewrite Z.add_0_r, Z.mul_assoc. rewrite <- (Z.mul_1_r (a * b)) at 1. apply Z.mul_le_mono_nonneg_l; [apply Z.mul_nonneg_nonneg; lia | lia]. Qed.
Lemma scale : forall v n p, 0 <= v < n -> 0 < p -> 0 <= v * p < n * p.
Proof. intros v n p V P. split; [apply Z.mul_nonneg_nonneg; lia | apply Z.mul_lt_mono_pos_r; lia]. Qed.
Lemma neg_ok : forall p, - 2 ^ (sI - 1) < p < 0 -> chk (Z.max 32 sI) (- p) = Ok (- p).
Proof.
  intros p H. unfold chk. replace (in_intb (Z.max 32 sI) (- p)) with true; [reflexivity |]. symmetry. apply in_intb_iff. unfold in_int. assert (2 ^ (sI - 1) <= 2 ^ (Z.max 32 sI - 1)) by (apply Z.pow_le_mono_r; lia). lia.
Qed.
Lemma short_neg : forall p, - 2 ^ (sI - 1) < p < 0 -> short sI (- p) = - p.
Proof. intros p H. unfold short. apply wrap_s_id; [lia |]. unfold in_int. lia. Qed.

Lemma times_mult : forall digit, 0 < digit <= B -> forall n w x, holds w x -> x * digit ^ Z.of_nat n < B ^ (zlen w - 1) ->
  exists w', times n (fun w => MultDigit sI sL w digit 0) w = Ok w' /\ zlen w' = zlen w /\ holds w' (x * digit ^ Z.of_nat n).
Proof.
  intros digit HD. induction n as [| n IH]; intros w x H L; cbn [times]; [exists w; split; [reflexivity |]; split; [reflexivity |]; cbn [Z.of_nat]; rewrite Z.pow_0_r, Z.mul_1_r; exact H |].
  rewrite Nat2Z.inj_succ, Z.pow_succ_r in * by lia. pose proof (holds_range w x H) as XR. assert (DP : 0 < digit ^ Z.of_nat n) by (apply Z.pow_pos_nonneg; lia).
  destruct (C76_multiply w x digit 0 H) as (w1 & E & L1 & _ & _ & H1); [lia | unfold B; lia |]. rewrite E. cbn [bind].
  destruct (IH w1 (x * digit + 0)) as (w2 & E2 & L2 & H2); [apply H1; eapply Z.le_lt_trans; [apply grow; [apply XR | apply HD | exact DP] | exact L] | rewrite L1; replace ((x * digit + 0) * digit ^ Z.of_nat n) with (x * (digit * digit ^ Z.of_nat n)) by ring; exact L |]. exists w2. split; [exact E2 |]. split; [lia |]. replace (x * (digit * digit ^ Z.of_nat n)) with ((x * digit + 0) * digit ^ Z.of_nat n) by ring. exact H2.
Qed.
Lemma times_div : forall digit, 0 < digit <= 65536 -> forall n w x, holds w x ->
  exists w', times n (fun w => let* (w, _) := DivDigit sI sL w digit in Ok w) w = Ok w' /\ zlen w' = zlen w /\ holds w' (x / digit ^ Z.of_nat n).
Proof.
  intros digit HD. induction n as [| n IH]; intros w x H; cbn [times]; [exists w; split; [reflexivity |]; split; [reflexivity |]; cbn [Z.of_nat]; rewrite Z.pow_0_r, Z.div_1_r; exact H |].
  rewrite Nat2Z.inj_succ, Z.pow_succ_r by lia. destruct (C76_divide w x digit H HD) as (w1 & E & L1 & H1). rewrite E. cbn [bind].
  destruct (IH w1 _ H1) as (w2 & E2 & L2 & H2). exists w2. split; [exact E2 |]. split; [lia |]. rewrite Z.div_div in H2 by (try lia; apply Z.pow_pos_nonneg; lia). exact H2.
Qed.
(** Multiplication by a power of ten, as long as the result has a place, and division by one, rounded down. *)
Theorem C76_ten_power : forall w x power, holds w x -> in_int sI power ->
  (0 <= power -> x * 10 ^ power < B ^ (zlen w - 1) -> exists w', TenPower sI sL w power = Ok w' /\ zlen w' = zlen w /\ holds w' (x * 10 ^ power)) /\
  (- 2 ^ (sI - 1) < power < 0 -> exists w', TenPower sI sL w power = Ok w' /\ zlen w' = zlen w /\ holds w' (x / 10 ^ (- power))).
Proof.
  intros w x power H IP. split.
  - intros P L. unfold TenPower. destruct (power >? 0) eqn:E.
    + pose proof (holds_range w x H) as XR.
      assert (EP : 10 ^ power = 10000 ^ (power / 4) * 10 ^ (power mod 4)). { change 10000 with (10 ^ 4). rewrite <- Z.pow_mul_r, <- Z.pow_add_r by lia. f_equal. lia. }
      assert (T1 : 0 < 10000 ^ (power / 4)) by (apply Z.pow_pos_nonneg; lia). assert (T2 : 0 < 10 ^ (power mod 4)) by (apply Z.pow_pos_nonneg; lia).
      destruct (times_mult 10000 ltac:(unfold B; lia) (Z.to_nat (power / 4)) w x H) as (w1 & E1 & L1 & H1); [rewrite Z2Nat.id by lia; rewrite EP in L; eapply Z.le_lt_trans; [| exact L]; rewrite <- (Z.add_0_r (x * 10000 ^ (power / 4))); apply grow; [apply XR | assumption | assumption] |]. rewrite Z2Nat.id in H1 by lia. rewrite E1. cbn [bind].
      destruct (times_mult 10 ltac:(unfold B; lia) (Z.to_nat (power mod 4)) w1 _ H1) as (w2 & E2 & L2 & H2); [rewrite Z2Nat.id, L1 by lia; rewrite EP, Z.mul_assoc in L; exact L |]. rewrite Z2Nat.id in H2 by lia. rewrite E2. exists w2. split; [reflexivity |]. split; [lia |]. rewrite EP, Z.mul_assoc. exact H2.
    + replace power with 0 by lia. cbn [Z.ltb Z.compare]. exists w. split; [reflexivity |]. split; [reflexivity |]. rewrite Z.pow_0_r, Z.mul_1_r. exact H.
  - intros P. unfold TenPower. replace (power >? 0) with false by lia. replace (power <? 0) with true by lia.
    rewrite neg_ok by lia. cbn [bind]. rewrite short_neg by lia. set (p := - power) in *. assert (PP : 0 < p) by lia.
    assert (EP : 10 ^ p = 10000 ^ (p / 4) * 10 ^ (p mod 4)). { change 10000 with (10 ^ 4). rewrite <- Z.pow_mul_r, <- Z.pow_add_r by lia. f_equal. lia. }
    assert (T1 : 0 < 10000 ^ (p / 4)) by (apply Z.pow_pos_nonneg; lia). assert (T2 : 0 < 10 ^ (p mod 4)) by (apply Z.pow_pos_nonneg; lia).
    destruct (times_div 10000 ltac:(lia) (Z.to_nat (p / 4)) w x H) as (w1 & E1 & L1 & H1). rewrite Z2Nat.id in H1 by lia. rewrite E1. cbn [bind].
    destruct (times_div 10 ltac:(lia) (Z.to_nat (p mod 4)) w1 _ H1) as (w2 & E2 & L2 & H2). rewrite Z2Nat.id, Z.div_div in H2 by lia. rewrite E2. exists w2. split; [reflexivity |]. split; [lia |]. rewrite EP. exact H2.
Qed.

Ltac Zify.zify_post_hook ::= idtac.
Lemma copy_up_spec : forall n w i p, 0 <= p -> 0 <= i -> i + Z.of_nat n + p <= zlen w ->
  exists w', copy_up n w i p = Ok w' /\ zlen w' = zlen w /\ forall j, 0 <= j < zlen w -> ix w' j = if (i <=? j) && (j <? i + Z.of_nat n) then ix w (j + p) else ix w j.
Proof.
  induction n as [| n IH]; intros w i p P I L; cbn [copy_up].
  - exists w. split; [reflexivity |]. split; [reflexivity |]. intros j J. replace ((i <=? j) && (j <? i + Z.of_nat 0)) with false by lia. reflexivity.
  - rewrite getA_ix by lia. cbn [bind]. rewrite setA_ix by lia. cbn [bind]. set (w1 := set_nth (Z.to_nat i) (ix w (i + p)) w). assert (L1 : zlen w1 = zlen w) by apply zlen_set.
    destruct (IH w1 (i + 1) p) as (w2 & E & L2 & X); [lia | lia | lia |]. exists w2. split; [exact E |]. split; [lia |]. intros j J. rewrite X by lia. unfold w1. rewrite !ix_set by lia.
    destruct (Z.eq_dec j i) as [-> | K].
    + replace ((i + 1 <=? i) && (i <? i + 1 + Z.of_nat n)) with false by lia. replace ((i <=? i) && (i <? i + Z.of_nat (S n))) with true by lia. rewrite Z.eqb_refl. reflexivity.
    + replace ((i <=? j) && (j <? i + Z.of_nat (S n))) with ((i + 1 <=? j) && (j <? i + 1 + Z.of_nat n)) by lia. destruct ((i + 1 <=? j) && (j <? i + 1 + Z.of_nat n)) eqn:Q; [replace (j + p =? i) with false by lia; reflexivity | replace (j =? i) with false by lia; reflexivity].
Qed.
Lemma copy_down_spec : forall n w i p, 0 <= p -> 0 <= i - Z.of_nat n + 1 -> i + p < zlen w ->
  exists w', copy_down n w i p = Ok w' /\ zlen w' = zlen w /\ forall j, 0 <= j < zlen w -> ix w' j = if (i - Z.of_nat n + 1 + p <=? j) && (j <=? i + p) then ix w (j - p) else ix w j.
Proof.
  induction n as [| n IH]; intros w i p P I L; cbn [copy_down].
  - exists w. split; [reflexivity |]. split; [reflexivity |]. intros j J. replace ((i - Z.of_nat 0 + 1 + p <=? j) && (j <=? i + p)) with false by lia. reflexivity.
  - rewrite getA_ix by lia. cbn [bind]. rewrite setA_ix by lia. cbn [bind]. set (w1 := set_nth (Z.to_nat (i + p)) (ix w i) w). assert (L1 : zlen w1 = zlen w) by apply zlen_set.
    destruct (IH w1 (i - 1) p) as (w2 & E & L2 & X); [lia | lia | lia |]. exists w2. split; [exact E |]. split; [lia |]. intros j J. rewrite X by lia. unfold w1.
    destruct (Z.eq_dec j (i + p)) as [-> | K].
    + replace ((i - 1 - Z.of_nat n + 1 + p <=? i + p) && (i + p <=? i - 1 + p)) with false by lia. replace ((i - Z.of_nat (S n) + 1 + p <=? i + p) && (i + p <=? i + p)) with true by lia. rewrite ix_set, Z.eqb_refl by lia. f_equal. lia.
    + replace ((i - Z.of_nat (S n) + 1 + p <=? j) && (j <=? i + p)) with ((i - 1 - Z.of_nat n + 1 + p <=? j) && (j <=? i - 1 + p)) by lia. destruct ((i - 1 - Z.of_nat n + 1 + p <=? j) && (j <=? i - 1 + p)) eqn:Q; rewrite ix_set by lia; [replace (j - p =? i + p) with false by lia; reflexivity | replace (j =? i + p) with false by lia; reflexivity].
Qed.
Lemma clear_spec : forall n w i, 0 <= i -> i + Z.of_nat n <= zlen w ->
  exists w', clear n w i = Ok w' /\ zlen w' = zlen w /\ forall j, 0 <= j < zlen w -> ix w' j = if (i <=? j) && (j <? i + Z.of_nat n) then 0 else ix w j.
Proof.
  induction n as [| n IH]; intros w i I L; cbn [clear].
  - exists w. split; [reflexivity |]. split; [reflexivity |]. intros j J. replace ((i <=? j) && (j <? i + Z.of_nat 0)) with false by lia. reflexivity.
  - rewrite setA_ix by lia. cbn [bind]. set (w1 := set_nth (Z.to_nat i) 0 w). assert (L1 : zlen w1 = zlen w) by apply zlen_set.
    destruct (IH w1 (i + 1)) as (w2 & E & L2 & X); [lia | lia |]. exists w2. split; [exact E |]. split; [lia |]. intros j J. rewrite X by lia. unfold w1. rewrite ix_set by lia.
    destruct (Z.eq_dec j i) as [-> | K].
    + replace ((i + 1 <=? i) && (i <? i + 1 + Z.of_nat n)) with false by lia. replace ((i <=? i) && (i <? i + Z.of_nat (S n))) with true by lia. rewrite Z.eqb_refl. reflexivity.
    + replace ((i <=? j) && (j <? i + Z.of_nat (S n))) with ((i + 1 <=? j) && (j <? i + 1 + Z.of_nat n)) by lia. destruct ((i + 1 <=? j) && (j <? i + 1 + Z.of_nat n)); [reflexivity | replace (j =? i) with false by lia; reflexivity].
Qed.
Lemma zlen_repeat : forall (x : Z) n, zlen (repeat x n) = Z.of_nat n.
Proof. intros. unfold zlen. rewrite repeat_length. reflexivity. Qed.
Lemma ix_repeat : forall n j, ix (repeat 0 n) j = 0.
Proof. intros. unfold ix. generalize (Z.to_nat j) as k. induction n as [| n IH]; intros [| k]; cbn; auto. Qed.
Lemma zeros_repeat : forall n, Forall (fun d => d = 0) (repeat 0 n).
Proof. induction n; constructor; auto. Qed.
(** Multiplication by a power of the base; what exceeds the places is lost.  Division by one, rounded down. *)
Theorem C76_base_power : forall w x power, holds w x -> - 2 ^ (sI - 1) < power < 2 ^ (sI - 1) -> - zlen w < power < zlen w ->
  exists w', BPower sI w power = Ok w' /\ zlen w' = zlen w /\ holds w' (if power <? 0 then x / B ^ (- power) else (x * B ^ power) mod B ^ (zlen w - 1)) /\
    (0 <= power -> x * B ^ power < B ^ (zlen w - 1) -> holds w' (x * B ^ power)).
Proof.
  intros w x power H IP HP. pose proof (holds_range w x H) as XR.
  assert (G : exists w', BPower sI w power = Ok w' /\ zlen w' = zlen w /\ holds w' (if power <? 0 then x / B ^ (- power) else (x * B ^ power) mod B ^ (zlen w - 1))).
  2: { destruct G as (w' & E & L & G). exists w'. split; [exact E |]. split; [exact L |]. split; [exact G |]. intros P0 Q. replace (power <? 0) with false in G by lia. rewrite Z.mod_small in G; [exact G |]. split; [| exact Q]. pose proof (Bpos power P0). apply Z.mul_nonneg_nonneg; lia. }
  destruct w as [| t r]; [destruct H as (_ & N & _); rewrite zlen_nil in N; lia |]. destruct H as (D & N & T & V). rewrite ix_cons0 in T. subst t. apply Forall_cons_iff in D as [_ D]. cbn [value] in V. rewrite zlen_cons in *.
  assert (V0 : value r = x) by lia. clear V. unfold BPower. rewrite zlen_cons. destruct (power >? 0) eqn:E.
  - replace (power <? 0) with false by lia.
    destruct (copy_up_spec (Z.to_nat (1 + zlen r - 1 - power)) (0 :: r) 1 power) as (w1 & E1 & L1 & X1); [lia | lia | rewrite zlen_cons; lia |]. rewrite E1. cbn [bind]. rewrite zlen_cons in *.
    destruct (clear_spec (Z.to_nat power) w1 (1 + zlen r - power)) as (w2 & E2 & L2 & X2); [lia | lia |]. rewrite E2. exists w2. split; [reflexivity |]. split; [lia |].
    assert (EW : w2 = 0 :: skipn (Z.to_nat power) r ++ repeat 0 (Z.to_nat power)).
    { apply ix_ext; [rewrite zlen_cons, zlen_app, zlen_skipn, zlen_repeat by lia; lia |]. intros j J. rewrite X2 by lia. destruct (Z.eq_dec j 0) as [-> | K].
      - rewrite ix_cons0. rewrite X1 by lia. replace ((1 + zlen r - power <=? 0) && (0 <? 1 + zlen r - power + Z.of_nat (Z.to_nat power))) with false by lia. replace ((1 <=? 0) && (0 <? 1 + Z.of_nat (Z.to_nat (1 + zlen r - 1 - power)))) with false by lia. apply ix_cons0.
      - rewrite ix_cons by lia. rewrite ix_app, zlen_skipn by lia. rewrite X1 by lia. destruct (j - 1 <? zlen r - power) eqn:Q.
        + replace ((1 + zlen r - power <=? j) && (j <? 1 + zlen r - power + Z.of_nat (Z.to_nat power))) with false by lia. replace ((1 <=? j) && (j <? 1 + Z.of_nat (Z.to_nat (1 + zlen r - 1 - power)))) with true by lia. rewrite ix_cons by lia. rewrite ix_skipn by lia. f_equal. lia.
        + replace ((1 + zlen r - power <=? j) && (j <? 1 + zlen r - power + Z.of_nat (Z.to_nat power))) with true by lia. symmetry. apply ix_repeat. }
    subst w2. assert (SR : r = firstn (Z.to_nat power) r ++ skipn (Z.to_nat power) r) by (symmetry; apply firstn_skipn).
    set (a := firstn (Z.to_nat power) r) in *. set (b := skipn (Z.to_nat power) r) in *. assert (Lb : zlen b = zlen r - power) by (apply zlen_skipn; lia). assert (La : zlen a = power) by (apply zlen_firstn; lia).
    rewrite SR in D. apply Forall_app in D as [Da Db]. pose proof (value_bound b Db) as VB. pose proof (value_bound a Da) as VA.
    assert (VX : x = value a * B ^ (zlen r - power) + value b) by (rewrite <- V0, SR, value_app, Lb; rewrite <- SR; reflexivity).
    assert (VN : value (0 :: b ++ repeat 0 (Z.to_nat power)) = (x * B ^ power) mod B ^ (1 + zlen r - 1)).
    { cbn [value]. rewrite value_app, (value_zeros (repeat 0 _)), zlen_repeat, Z2Nat.id by (try apply zeros_repeat; lia). replace (1 + zlen r - 1) with (zlen r) by lia.
      apply Z.mod_unique_pos with (value a). { rewrite Lb in VB. assert (B ^ zlen r = B ^ (zlen r - power) * B ^ power) by (rewrite <- Z.pow_add_r by lia; f_equal; lia). pose proof (scale _ _ _ VB (Bpos power ltac:(lia))) as SC. rewrite H. lia. }
      rewrite VX. replace (B ^ zlen r) with (B ^ (zlen r - power) * B ^ power) by (rewrite <- Z.pow_add_r by lia; f_equal; lia). ring. }
    rewrite <- VN. split; [constructor; [unfold B; lia |]; apply Forall_app; split; [exact Db | apply zeros_digits, zeros_repeat] |]. split; [rewrite zlen_cons, zlen_app, zlen_repeat; clear VN VX VB XR V0; lia |]. split; [apply ix_cons0 | reflexivity].
  - destruct (power <? 0) eqn:E'.
    2: { replace power with 0 by lia. exists (0 :: r). rewrite zlen_cons. split; [reflexivity |]. split; [reflexivity |]. rewrite Z.pow_0_r, Z.mul_1_r, Z.mod_small by lia. split; [constructor; [unfold B; lia | exact D] |]. rewrite zlen_cons. split; [lia |]. split; [apply ix_cons0 | cbn [value]; lia]. }
    rewrite neg_ok by lia. cbn [bind]. rewrite short_neg by lia. set (p := - power) in *.
    destruct (copy_down_spec (Z.to_nat (1 + zlen r - 1 - p)) (0 :: r) (1 + zlen r - 1 - p) p) as (w1 & E1 & L1 & X1); [lia | lia | rewrite zlen_cons; lia |]. rewrite E1. cbn [bind]. rewrite zlen_cons in *.
    destruct (clear_spec (Z.to_nat p) w1 1) as (w2 & E2 & L2 & X2); [lia | lia |]. rewrite E2. exists w2. split; [reflexivity |]. split; [lia |].
    assert (EW : w2 = 0 :: repeat 0 (Z.to_nat p) ++ firstn (Z.to_nat (zlen r - p)) r).
    { apply ix_ext; [rewrite zlen_cons, zlen_app, zlen_firstn, zlen_repeat by lia; lia |]. intros j J. rewrite X2 by lia. destruct (Z.eq_dec j 0) as [-> | K].
      - rewrite ix_cons0. rewrite X1 by lia. replace ((1 <=? 0) && (0 <? 1 + Z.of_nat (Z.to_nat p))) with false by lia. replace ((1 + zlen r - 1 - p - Z.of_nat (Z.to_nat (1 + zlen r - 1 - p)) + 1 + p <=? 0) && (0 <=? 1 + zlen r - 1 - p + p)) with false by lia. apply ix_cons0.
      - rewrite ix_cons by lia. rewrite ix_app, zlen_repeat by lia. rewrite X1 by lia. destruct (j - 1 <? Z.of_nat (Z.to_nat p)) eqn:Q.
        + replace ((1 <=? j) && (j <? 1 + Z.of_nat (Z.to_nat p))) with true by lia. symmetry. apply ix_repeat.
        + replace ((1 <=? j) && (j <? 1 + Z.of_nat (Z.to_nat p))) with false by lia. replace ((1 + zlen r - 1 - p - Z.of_nat (Z.to_nat (1 + zlen r - 1 - p)) + 1 + p <=? j) && (j <=? 1 + zlen r - 1 - p + p)) with true by lia. rewrite ix_cons by lia. rewrite ix_firstn by lia. f_equal. lia. }
    subst w2. assert (SR : r = firstn (Z.to_nat (zlen r - p)) r ++ skipn (Z.to_nat (zlen r - p)) r) by (symmetry; apply firstn_skipn).
    set (a := firstn (Z.to_nat (zlen r - p)) r) in *. set (b := skipn (Z.to_nat (zlen r - p)) r) in *. assert (Lb : zlen b = p). { unfold b. rewrite zlen_skipn by lia. lia. } assert (La : zlen a = zlen r - p) by (apply zlen_firstn; lia).
    assert (Da : digits a /\ digits b) by (rewrite SR in D; apply Forall_app in D; exact D). destruct Da as [Da Db]. pose proof (value_bound b Db) as VB. rewrite Lb in VB.
    assert (VX : x = value a * B ^ p + value b) by (rewrite <- V0, SR, value_app, Lb; reflexivity).
    assert (VN : value (0 :: repeat 0 (Z.to_nat p) ++ a) = x / B ^ p). { cbn [value]. rewrite value_app, (value_zeros (repeat 0 _)) by apply zeros_repeat. apply Z.div_unique_pos with (value b); [exact VB | rewrite VX; ring]. }
    rewrite <- VN. split; [constructor; [unfold B; lia |]; apply Forall_app; split; [apply zeros_digits, zeros_repeat | exact Da] |]. split; [rewrite zlen_cons, zlen_app, zlen_repeat; clear VN VX VB XR V0; lia |]. split; [apply ix_cons0 | reflexivity].
Qed.
End Sizes.

(** Arrays of 170 digits, as in the module: 10^400 is reached from 1 and divided again. *)
Module Case.
Definition one : list Z := repeat 0 169 ++ [1].
Example one_holds : holds one 1.
Proof. split; [repeat (constructor; [unfold B; lia |]); constructor |]. split; [vm_compute; discriminate |]. split; reflexivity. Qed.
Example bound : 1 * 10 ^ 400 < B ^ (zlen one - 1).
Proof. vm_compute. reflexivity. Qed.
Example there_and_back : (let* w := TenPower 16 32 one 400 in TenPower 16 32 w (-400)) = Ok one.
Proof. vm_compute. reflexivity. Qed.
(** A digit in the spare element is not seen when the next ones are zero: the number is not doubled. *)
Example spare : MultDigit 16 32 (1 :: repeat 0 169) 2 0 = Ok (1 :: repeat 0 169).
Proof. vm_compute. reflexivity. Qed.
End Case.

Print Assumptions C76_multiply.
Print Assumptions C76_add.
Print Assumptions C76_divide.
Print Assumptions C76_ten_power.
Print Assumptions C76_base_power.
