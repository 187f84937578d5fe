(** C85: dates and day numbers belong together. *)
From Verif Require Import Base CalModel CalSpec.

Ltac dlia := Z.to_euclidean_division_equations; lia.
Lemma i16_id : forall x, -32768 <= x < 32768 -> i16 x = x.
Proof. intros x H. apply wrap_s_id; [lia|]. unfold in_int. change (2 ^ (16 - 1)) with 32768. lia. Qed.
Lemma div_iff : forall k y, 0 < k -> ((k | y) <-> y mod k = 0).
Proof. intros k y H. symmetry. apply Z.mod_divide. lia. Qed.
Lemma leap_iff : forall y, IsLeapYear y = true <-> gregorian y.
Proof.
  intros y. unfold IsLeapYear, gregorian. rewrite !div_iff by lia. rewrite andb_true_iff, orb_true_iff, negb_true_iff, !Z.eqb_eq, Z.eqb_neq.
  split; [intros [A [B|B]]; auto|]. intros [[A B]|B]; auto. split; auto. dlia.
Qed.
Lemma leap_no : forall y, IsLeapYear y = false <-> ~ gregorian y.
Proof. intros y. rewrite <- leap_iff. destruct (IsLeapYear y); split; congruence. Qed.
Ltac months H := repeat match type of H with In _ (_ :: _) => destruct H as [H|H] | In _ [] => destruct H end.
Lemma md_range : forall leap y m l, month_days leap y m l -> (m = 1 \/ m = 2 \/ m = 3 \/ m = 4 \/ m = 5 \/ m = 6 \/ m = 7 \/ m = 8 \/ m = 9 \/ m = 10 \/ m = 11 \/ m = 12) /\ 28 <= l <= 31.
Proof. intros leap y m l H. inversion H; subst; try (match goal with h : In _ _ |- _ => months h end); lia. Qed.
Lemma LastDay_iff : forall y m l, 1 <= m <= 12 -> (month_days gregorian y m l <-> l = LastDay y m).
Proof.
  intros y m l M. assert (C : m = 1 \/ m = 2 \/ m = 3 \/ m = 4 \/ m = 5 \/ m = 6 \/ m = 7 \/ m = 8 \/ m = 9 \/ m = 10 \/ m = 11 \/ m = 12) by lia. split.
  - intros H. inversion H; subst; try (match goal with h : In _ _ |- _ => months h; subst; reflexivity end); unfold LastDay; cbn [Z.ltb Z.gtb Z.compare Pos.compare Pos.compare_cont Z.odd Z.eqb Pos.eqb andb orb negb].
    + replace (IsLeapYear y) with true by (symmetry; apply leap_iff; auto). reflexivity.
    + replace (IsLeapYear y) with false by (symmetry; apply leap_no; auto). reflexivity.
  - intros ->. destruct C as [C|[C|C]]; subst.
    + constructor. cbn; tauto.
    + unfold LastDay. cbn [Z.ltb Z.gtb Z.compare Pos.compare Pos.compare_cont Z.odd Z.eqb Pos.eqb andb orb negb]. destruct (IsLeapYear y) eqn:L; constructor; [apply leap_iff|apply leap_no]; auto.
    + repeat destruct C as [C|C]; subst; unfold LastDay; cbn [Z.ltb Z.gtb Z.compare Pos.compare Pos.compare_cont Z.odd Z.eqb Pos.eqb andb orb negb]; constructor; cbn; tauto.
Qed.
Lemma unpack : forall y m d, 0 <= m < 16 -> 0 <= d < 32 ->
  pack (y, m, d) / 512 = y - 1900 /\ pack (y, m, d) / 32 = (y - 1900) * 16 + m /\ pack (y, m, d) / 32 mod 16 = m /\ pack (y, m, d) mod 32 = d.
Proof. intros y m d M D. unfold pack. dlia. Qed.
Ltac anth := repeat match goal with
  | H : context [Anth ?e] |- _ => let v := eval vm_compute in (Anth e) in change (Anth e) with v in H
  | |- context [Anth ?e] => let v := eval vm_compute in (Anth e) in change (Anth e) with v
  end.
(** The table of months. *)
Lemma T_spec : forall m i, 1 <= m <= 12 -> Anth (m - 1) <= i < Anth m -> nth (Z.to_nat i) T 0 = m.
Proof.
  assert (K : forallb (fun m => forallb (fun i => implb ((Anth (Z.of_nat m) <=? Z.of_nat i) && (Z.of_nat i <? Anth (Z.of_nat m + 1))) (nth i T 0 =? Z.of_nat m + 1)) (seq 0 365)) (seq 0 12) = true) by (vm_compute; reflexivity).
  rewrite forallb_forall in K. intros m i M I. assert (I2 : 0 <= i < 365).
  { assert (C : m = 1 \/ m = 2 \/ m = 3 \/ m = 4 \/ m = 5 \/ m = 6 \/ m = 7 \/ m = 8 \/ m = 9 \/ m = 10 \/ m = 11 \/ m = 12) by lia. repeat destruct C as [C|C]; subst; anth; lia. }
  specialize (K (Z.to_nat (m - 1))). rewrite in_seq in K. specialize (K ltac:(lia)). rewrite forallb_forall in K. specialize (K (Z.to_nat i)). rewrite in_seq in K. specialize (K ltac:(lia)).
  rewrite !Z2Nat.id in K by lia. replace (m - 1 + 1) with m in K by lia. replace ((Anth (m - 1) <=? i) && (i <? Anth m)) with true in K by lia. cbn [implb] in K. lia.
Qed.
(** ** Dates of ethDates *)
Definition extra (y m : Z) : Z := if (y mod 4 =? 0) && (m >? 2) then 1 else 0.
Definition ord (x : date) : Z := let '(y, m, d) := x in (y - 1901) * 365 + (y - 1901) / 4 + Anth (m - 1) + d - 1 + extra y m.
Lemma in_range_inv : forall y m d, in_range (y, m, d) <-> 1901 <= y <= 2100 /\ 1 <= m <= 12 /\ 1 <= d <= LastDay y m /\ (y = 2100 -> m <= 2).
Proof.
  intros y m d. unfold in_range, earlier. cbn [fst]. split.
  - intros ((l & L & D) & Y & B). pose proof (md_range _ _ _ _ L) as [M R]. assert (M' : 1 <= m <= 12) by lia. pose proof (proj1 (LastDay_iff y m l M') L) as ->.
    split; [lia|]. split; auto. split; [lia|]. lia.
  - intros (Y & M & D & B). split; [|lia]. exists (LastDay y m). split; auto. apply LastDay_iff; auto.
Qed.
Lemma leap4 : forall y, 1901 <= y <= 2099 -> IsLeapYear y = (y mod 4 =? 0).
Proof. intros y Y. unfold IsLeapYear. destruct (y mod 4 =? 0) eqn:A; auto. cbn [andb]. destruct (y mod 100 =? 0) eqn:B; auto. cbn [negb orb]. apply Z.eqb_eq in A, B. assert (y = 2000) by dlia. subst. reflexivity. Qed.
Lemma days_ord : forall x, in_range x -> NumberOfDays (pack x) = ord x.
Proof.
  intros [[y m] d] R. apply in_range_inv in R as (Y & M & D & B). assert (D31 : LastDay y m <= 31) by (unfold LastDay; repeat match goal with |- context [if ?b then _ else _] => destruct b end; lia).
  destruct (unpack y m d) as (U1 & U2 & U3 & U4); [lia|lia|]. unfold NumberOfDays. rewrite U1, U2, U4. unfold zeroY, firstY. rewrite (i16_id (y - 1900)) by lia. replace (y - 1900 + 1900 - 1901) with (y - 1901) by lia.
  rewrite (i16_id (y - 1901)), (i16_id ((y - 1900) * 16 + m)) by lia. replace (1901 + (y - 1901)) with y by lia. rewrite (i16_id y) by lia. replace (((y - 1900) * 16 + m) mod 16) with m by dlia. replace ((m - 1) mod 12) with (m - 1) by dlia. unfold ord, extra.
  destruct (Z.eq_dec y 2100) as [->|NY].
  - specialize (B eq_refl). replace (m >? 2) with false by lia. rewrite !andb_false_r. lia.
  - rewrite leap4 by lia. destruct ((y mod 4 =? 0) && (m >? 2)); lia.
Qed.
Ltac split_months C := repeat destruct C as [C|C]; subst.
Lemma month_cases : forall m, 1 <= m <= 12 -> m = 1 \/ m = 2 \/ m = 3 \/ m = 4 \/ m = 5 \/ m = 6 \/ m = 7 \/ m = 8 \/ m = 9 \/ m = 10 \/ m = 11 \/ m = 12.
Proof. intros m M. lia. Qed.
Ltac norm := cbn [Z.ltb Z.gtb Z.compare Pos.compare Pos.compare_cont Z.odd Z.eqb Pos.eqb andb orb negb] in *.
Lemma LastDay_2 : forall y, LastDay y 2 = if IsLeapYear y then 29 else 28. Proof. reflexivity. Qed.
Lemma ord_next : forall x z, in_range x -> in_range z -> next gregorian x z -> ord z = ord x + 1.
Proof.
  intros x z RX RZ H. destruct H as [y m d l L1 L2 | y m l L1 L2 | y].
  - unfold ord. lia.
  - apply in_range_inv in RX as (Y & M & D & B). apply in_range_inv in RZ as (_ & _ & _ & B2). pose proof (proj1 (LastDay_iff y m l M) L1) as L. clear L1 D. unfold ord, extra. replace (m + 1 - 1) with m by lia.
    destruct (Z.eq_dec m 2) as [->|N2].
    + rewrite LastDay_2 in L. rewrite leap4 in L by lia. change (2 - 1) with 1. change (2 + 1) with 3. anth. norm. subst l. destruct (y mod 4 =? 0); norm; lia.
    + assert (E : Anth m = Anth (m - 1) + l /\ (m + 1 >? 2) = (m >? 2)) by (destruct (month_cases m M) as [->|[->|C]]; [split; subst; reflexivity|lia|split_months C; try lia; split; reflexivity]).
      destruct E as [E1 E2]. rewrite E1, E2. lia.
  - apply in_range_inv in RX as (Y & _). apply in_range_inv in RZ as (Y2 & _). unfold ord, extra. change (12 - 1) with 11. change (1 - 1) with 0. anth. norm. rewrite andb_true_r, andb_false_r.
    destruct (y mod 4 =? 0) eqn:Q; [apply Z.eqb_eq in Q|apply Z.eqb_neq in Q]; dlia.
Qed.
(** The number gives the date. *)
Lemma of_days : forall x, in_range x -> NumberOfDaysToDate (ord x) = Ok (pack x).
Proof.
  intros [[y m] d] R. apply in_range_inv in R as (Y & M & D & B). unfold NumberOfDaysToDate.
  assert (AM : 0 <= Anth (m - 1) /\ Anth (m - 1) < Anth m /\ Anth m <= 365 /\ (m <= 2 -> Anth m <= 59) /\ (2 < m -> 59 <= Anth (m - 1)) /\ (m < 2 -> Anth m <= 31) /\ (m = 2 -> Anth (m - 1) = 31 /\ Anth m = 59) /\ (m <> 2 -> LastDay y m = Anth m - Anth (m - 1))).
  { destruct (month_cases m M) as [->|[->|C]]; [|change (2 - 1) with 1|split_months C]; anth; try (repeat split; try lia; reflexivity). }
  destruct AM as (A1 & A2 & A3 & A4 & A5 & A6 & A7 & A8).
  assert (L2 : y <> 2100 -> LastDay y 2 = if y mod 4 =? 0 then 29 else 28) by (intros N; rewrite LastDay_2, leap4 by lia; reflexivity).
  assert (L3 : LastDay 2100 2 = 28) by reflexivity.
  set (o := ord (y, m, d)). 
  assert (O : o = (y - 1901) * 365 + (y - 1901) / 4 + Anth (m - 1) + d - 1 + extra y m) by reflexivity.
  (* the corrected number: 29 February is the day with remainder 0 *)
  set (q := (y - 1901) / 4) in *. set (r := (y - 1901) mod 4).
  assert (QR : y - 1901 = 4 * q + r /\ 0 <= r < 4) by (unfold q, r; dlia). destruct QR as [QR R4].
  assert (Y4 : (y mod 4 =? 0) = (r =? 3)) by (destruct (Z.eqb_spec (y mod 4) 0), (Z.eqb_spec r 3); try reflexivity; dlia).
  unfold extra in O. rewrite Y4 in *.
  set (f := (m =? 2) && (d =? 29)).
  assert (S : (o + 307) / 1461 = q + (if (r =? 3) && ((m >? 2) || f) then 1 else 0) /\ ((o + 307) mod 1461 =? 0) = f).
  { assert (W : o + 307 = 1461 * q + (365 * r + Anth (m - 1) + d + 306 + (if (r =? 3) && (m >? 2) then 1 else 0))) by lia.
    assert (K : forall v t, o + 307 = 1461 * v + t -> 0 <= t < 1461 -> (o + 307) / 1461 = v /\ (o + 307) mod 1461 = t) by (intros v t V T; dlia).
    unfold f. destruct (Z.eqb_spec r 3) as [R3|R3]; cbn [andb] in *.
    - destruct (m >? 2) eqn:G; cbn [orb].
      + destruct (K (q + 1) (Anth (m - 1) + d - 59)) as [K1 K2]; [lia|lia|]. rewrite K1, K2. split; [lia|]. lia.
      + destruct (m =? 2) eqn:E2; cbn [andb].
        * assert (m = 2) by lia. destruct A7 as [A71 A72]; [auto|]. subst m. rewrite A71 in *. assert (d <= 29) by (destruct (Z.eq_dec y 2100) as [->|N]; [rewrite L3 in D; lia|rewrite L2 in D by auto; lia]).
          destruct (d =? 29) eqn:E29.
          -- destruct (K (q + 1) 0) as [K1 K2]; [lia|lia|]. rewrite K1, K2. split; [lia|reflexivity].
          -- destruct (K q (1401 + 31 + d)) as [K1 K2]; [lia|lia|]. rewrite K1, K2. split; lia.
        * rewrite A8 in D by lia. assert (Anth m <= 31) by lia. destruct (K q (1401 + Anth (m - 1) + d)) as [K1 K2]; [lia|lia|]. rewrite K1, K2. split; lia.
    - assert (d <= 28 \/ m <> 2) by (destruct (Z.eq_dec m 2) as [->|]; [left|right; auto]; destruct (Z.eq_dec y 2100) as [->|N]; [rewrite L3 in D; lia|rewrite L2 in D by auto; lia]).
      assert (Anth (m - 1) + d <= 365) by (destruct (Z.eq_dec m 2) as [->|N]; [destruct A7; auto; lia|rewrite A8 in D by auto; lia]).
      destruct (K q (365 * r + Anth (m - 1) + d + 306)) as [K1 K2]; [lia|lia|]. rewrite K1, K2. split; [lia|].
      destruct (m =? 2) eqn:E2; cbn [andb]; lia. }
  destruct S as [S1 S2]. assert (D31 : LastDay y m <= 31) by (unfold LastDay; repeat match goal with |- context [if ?b then _ else _] => destruct b end; lia).
  rewrite chk_ok by (unfold in_int; change (2 ^ (32 - 1)) with 2147483648; destruct ((r =? 3) && (m >? 2)); lia).
  rewrite bind_ok. cbv zeta. rewrite S1, S2.
  set (w := if f then 1 else 0). set (t := Anth (m - 1) + d - 1 - w).
  assert (E : o - (q + (if (r =? 3) && ((m >? 2) || f) then 1 else 0)) = 365 * (y - 1901) + t).
  { unfold t, w. rewrite O. subst f. destruct (r =? 3) eqn:R3; cbn [andb].
    - destruct (m >? 2) eqn:G; cbn [orb]; [replace (m =? 2) with false by lia; cbn [andb]; lia|]. destruct ((m =? 2) && (d =? 29)); lia.
    - assert (d <= 28 \/ m <> 2) by (destruct (Z.eq_dec m 2) as [->|]; [left|right; auto]; destruct (Z.eq_dec y 2100) as [->|N]; [rewrite L3 in D; lia|rewrite L2 in D by auto; lia]).
      destruct (m =? 2) eqn:E2; cbn [andb]; [replace (d =? 29) with false by lia|]; lia. }
  assert (TR : Anth (m - 1) <= t < Anth m).
  { unfold t, w, f. destruct (Z.eq_dec m 2) as [->|N].
    - destruct A7 as [A71 A72]; [auto|]. rewrite A71, A72 in *. cbn [Z.eqb Pos.eqb andb]. assert (d <= 29) by (destruct (Z.eq_dec y 2100) as [->|N]; [rewrite L3 in D; lia|rewrite L2 in D by auto; destruct (r =? 3); lia]). destruct (d =? 29) eqn:E29; lia.
    - rewrite A8 in D by auto. replace (m =? 2) with false by lia. cbn [andb]. lia. }
  rewrite E. replace ((365 * (y - 1901) + t) / 365) with (y - 1901) by dlia. replace ((365 * (y - 1901) + t) mod 365) with t by dlia. unfold firstY, zeroY. replace (1901 >? 1901 + (y - 1901)) with false by lia.
  rewrite (T_spec m t M TR). f_equal. unfold pack, t, w. destruct f; lia.
Qed.
Lemma pack_inj : forall x z, in_range x -> in_range z -> pack x = pack z -> x = z.
Proof.
  intros [[y m] d] [[y' m'] d'] X Z E. apply in_range_inv in X as (_ & M & D & _). apply in_range_inv in Z as (_ & M' & D' & _).
  assert (L31 : forall y m, LastDay y m <= 31) by (intros; unfold LastDay; repeat match goal with |- context [if ?b then _ else _] => destruct b end; lia).
  pose proof (L31 y m). pose proof (L31 y' m'). unfold pack in E. assert (d = d') by lia. assert (m = m') by lia. assert (y = y') by lia. congruence.
Qed.
Lemma ord_inj : forall x z, in_range x -> in_range z -> ord x = ord z -> x = z.
Proof. intros x z X Z E. apply pack_inj; auto. pose proof (of_days x X) as P. rewrite E, (of_days z Z) in P. congruence. Qed.
Lemma first_in : in_range (1901, 1, 1). Proof. apply in_range_inv. repeat split; try lia. vm_compute. discriminate. Qed.
Lemma first_ord : ord (1901, 1, 1) = 0. Proof. reflexivity. Qed.
Lemma ord_nonneg : forall x, in_range x -> 0 <= ord x.
Proof.
  intros [[y m] d] X. apply in_range_inv in X as (Y & M & D & _). assert (0 <= Anth (m - 1)) by (destruct (month_cases m M) as [->|C]; [|split_months C]; vm_compute; discriminate).
  unfold ord, extra. assert (0 <= (y - 1901) / 4) by (apply Z.div_pos; lia). destruct ((y mod 4 =? 0) && (m >? 2)); lia.
Qed.
Lemma LastDay_pos : forall y m, 28 <= LastDay y m <= 31.
Proof. intros. unfold LastDay; repeat match goal with |- context [if ?b then _ else _] => destruct b end; lia. Qed.
Lemma pred : forall x, in_range x -> x <> (1901, 1, 1) -> exists p, in_range p /\ next gregorian p x.
Proof.
  intros [[y m] d] X N. apply in_range_inv in X as (Y & M & D & B). destruct (Z.eq_dec d 1) as [->|D1].
  - destruct (Z.eq_dec m 1) as [->|M1].
    + exists (y - 1, 12, 31). split; [apply in_range_inv; change (LastDay (y - 1) 12) with 31; assert (y <> 1901) by congruence; lia|]. replace (y, 1, 1) with (y - 1 + 1, 1, 1) by (repeat f_equal; lia). constructor.
    + exists (y, m - 1, LastDay y (m - 1)). pose proof (LastDay_pos y (m - 1)). split; [apply in_range_inv; lia|]. replace (y, m, 1) with (y, m - 1 + 1, 1) by (repeat f_equal; lia). constructor; [|lia]. apply LastDay_iff; [lia|reflexivity].
  - exists (y, m, d - 1). split; [apply in_range_inv; lia|]. replace (y, m, d) with (y, m, d - 1 + 1) by (repeat f_equal; lia). apply nx_day with (l := LastDay y m); [|lia]. apply LastDay_iff; auto.
Qed.
Lemma next_in : forall x z, next gregorian x z -> valid gregorian x -> 1901 <= fst (fst x) -> valid gregorian z /\ 1901 <= fst (fst z) /\ (earlier z (2100, 3, 1) -> earlier x (2100, 3, 1)).
Proof.
  intros x z N V Y. destruct N as [y m d l L D | y m l L M | y]; cbn [fst] in *.
  - destruct V as (l' & L' & D'). assert (l' = l). { pose proof (md_range _ _ _ _ L) as [R _]. rewrite LastDay_iff in L, L' by lia. congruence. } subst l'. split; [exists l; split; auto; lia|]. split; auto. unfold earlier. lia.
  - pose proof (md_range _ _ _ _ L) as [R _]. split; [exists (LastDay y (m + 1)); split; [apply LastDay_iff; lia|pose proof (LastDay_pos y (m + 1)); lia]|]. split; auto. unfold earlier. lia.
  - split; [exists 31; split; [constructor; cbn; tauto|lia]|]. split; [lia|]. unfold earlier. lia.
Qed.
Lemma after_in : forall x n z, after gregorian x n z -> in_range x -> valid gregorian z /\ 1901 <= fst (fst z).
Proof. intros x n z A (V & Y & _). induction A as [|x y z n A IH N]; auto. destruct IH as [I1 I2]; auto. destruct (next_in _ _ N I1 I2) as (? & ? & _). auto. Qed.
Lemma after_ord : forall x n z, after gregorian x n z -> in_range x -> in_range z -> ord z = ord x + Z.of_nat n.
Proof.
  intros x n z A X. induction A as [|x y z n A IH N]; intros Z; [lia|]. destruct (after_in _ _ _ A X) as [V Y]. destruct (next_in _ _ N V Y) as (_ & _ & E).
  assert (IY : in_range y) by (split; [|split]; auto; apply E; apply Z). rewrite (ord_next _ _ IY Z N), (IH X IY). lia.
Qed.
Lemma after_trans : forall leap x n y m z, after leap x n y -> after leap y m z -> after leap x (n + m) z.
Proof. intros leap x n y m z A B. induction B as [|y' w z m B IH N]; [rewrite Nat.add_0_r; auto|]. rewrite Nat.add_succ_r. econstructor; eauto. Qed.
Lemma ord_after : forall n x z, in_range x -> in_range z -> ord z = ord x + Z.of_nat n -> after gregorian x n z.
Proof.
  induction n as [|n IH]; intros x z X Z E.
  - replace x with z; [constructor|]. apply ord_inj; auto. lia.
  - destruct (pred z Z) as (p & P & N). { intros ->. pose proof (ord_nonneg x X). rewrite first_ord in E. lia. }
    apply af_S with (y := p); auto. apply IH; auto. pose proof (ord_next p z P Z N). lia.
Qed.
(** ** Day numbers: from 1 January 1901 up to 28 February 2100 the number of a date is the number of days since 1 January 1901, and the number gives the date back *)
Theorem C85_days_partial : forall x, in_range x ->
  (forall n, NumberOfDays (pack x) = Z.of_nat n <-> after gregorian (1901, 1, 1) n x) /\
  0 <= NumberOfDays (pack x) /\ NumberOfDaysToDate (NumberOfDays (pack x)) = Ok (pack x).
Proof.
  intros x X. rewrite days_ord by auto. split; [|split; [apply ord_nonneg; auto|apply of_days; auto]]. intros n. split.
  - intros E. apply ord_after; [apply first_in|auto|rewrite first_ord; lia].
  - intros A. rewrite (after_ord _ _ _ A first_in X), first_ord. lia.
Qed.
(** ** Not beyond: the day after 28 February 2100 is 1 March 2100, but it comes out as 29 February; and 1 January 2101 is numbered one too high *)
Theorem C85_days_refuted :
  next gregorian (2100, 2, 28) (2100, 3, 1) /\ AddDay (pack (2100, 2, 28)) 1 = Ok (pack (2100, 2, 29)) /\ ~ valid gregorian (2100, 2, 29) /\
  next gregorian (2100, 12, 31) (2101, 1, 1) /\ NumberOfDays (pack (2101, 1, 1)) = NumberOfDays (pack (2100, 12, 31)) + 2.
Proof.
  assert (NL : ~ gregorian 2100) by (apply leap_no; reflexivity). split; [|split; [vm_compute; reflexivity|split; [|split; [|vm_compute; reflexivity]]]].
  - apply (nx_month gregorian 2100 2 28); [apply md_28; auto|lia].
  - intros (l & L & D). apply LastDay_iff in L; [|lia]. vm_compute in L. lia.
  - apply (nx_year gregorian 2100).
Qed.
(** ** Adding days: the date that many days later, or earlier *)
Theorem C85_add_day : forall x n z, in_range x -> in_range z -> after gregorian x n z ->
  AddDay (pack x) (Z.of_nat n) = Ok (pack z) /\ AddDay (pack z) (- Z.of_nat n) = Ok (pack x).
Proof.
  intros x n z X Z A. pose proof (after_ord _ _ _ A X Z) as E.
  assert (R : forall x, in_range x -> 0 <= ord x < 80000).
  { intros [[y m] d] I. split; [apply ord_nonneg; auto|]. apply in_range_inv in I as (Y & M & D & _). pose proof (LastDay_pos y m). assert (Anth (m - 1) <= 365) by (destruct (month_cases m M) as [->|C]; [|split_months C]; vm_compute; discriminate).
    unfold ord, extra. assert ((y - 1901) / 4 <= 50) by (apply Z.div_le_upper_bound; lia). destruct ((y mod 4 =? 0) && (m >? 2)); lia. }
  unfold AddDay. rewrite !days_ord by auto. pose proof (R x X). pose proof (R z Z). split; rewrite chk_ok by (unfold in_int; change (2 ^ (32 - 1)) with 2147483648; lia); rewrite bind_ok.
  - rewrite <- E. apply of_days; auto.
  - replace (ord z + - Z.of_nat n) with (ord x) by lia. apply of_days; auto.
Qed.
(** ** Days of the week follow each other; 1 January 1901 was a Tuesday *)
Theorem C85_weekday : forall x z, in_range x -> in_range z -> next gregorian x z ->
  0 <= DayOfWeek (pack x) <= 6 /\ DayOfWeek (pack z) = (DayOfWeek (pack x) + 1) mod 7 /\ DayOfWeek (pack (1901, 1, 1)) = 1.
Proof.
  intros x z X Z N. assert (W : forall x, in_range x -> DayOfWeek (pack x) = (ord x + 1) mod 7).
  { intros w I. unfold DayOfWeek. rewrite days_ord by auto. apply i16_id. pose proof (Z.mod_pos_bound (ord w + 1) 7). lia. }
  rewrite !W by auto. rewrite (ord_next x z X Z N). pose proof (Z.mod_pos_bound (ord x + 1) 7). split; [lia|]. split; [dlia|vm_compute; reflexivity].
Qed.
(** ** Taking dates apart and putting them together *)
Theorem C85_parts : forall y m d, valid gregorian (y, m, d) -> 1 <= y <= 32767 ->
  ToDate y m d = pack (y, m, d) /\ ToYMD (pack (y, m, d)) = (y, m, d) /\ month_days gregorian y m (DaysOfMonth (pack (y, m, d))).
Proof.
  intros y m d (l & L & D) Y. pose proof (md_range _ _ _ _ L) as [M _]. assert (M' : 1 <= m <= 12) by lia. apply LastDay_iff in L; auto. subst l. pose proof (LastDay_pos y m). split; [|split].
  - unfold ToDate, pack, zeroY. replace (1 + (m - 1) mod 12) with m by dlia. rewrite (Z.mod_small (d - 1)) by lia. lia.
  - destruct (unpack y m d) as (U1 & U2 & U3 & U4); [lia|lia|]. unfold ToYMD, zeroY. rewrite U1, U3, U4, (i16_id (y - 1900)), (i16_id (y - 1900 + 1900)), (i16_id m), (i16_id d) by lia. repeat f_equal; lia.
  - destruct (unpack y m d) as (U1 & U2 & U3 & U4); [lia|lia|]. unfold DaysOfMonth, zeroY. rewrite U1, U3, (i16_id (y - 1900 + 1900)), (i16_id m) by lia. replace (y - 1900 + 1900) with y by lia. apply LastDay_iff; auto.
Qed.
(** Whatever is asked for, a date is made: the month and the day are reduced. *)
Theorem C85_made : forall y m d, 1 <= y <= 32767 -> exists m' d', ToDate y m d = pack (y, m', d') /\ valid gregorian (y, m', d') /\ (12 | m' - m).
Proof.
  intros y m d Y. exists (1 + (m - 1) mod 12), (1 + (d - 1) mod LastDay y (1 + (m - 1) mod 12)). assert (M : 1 <= 1 + (m - 1) mod 12 <= 12) by dlia. pose proof (LastDay_pos y (1 + (m - 1) mod 12)) as P.
  split; [reflexivity|]. split; [exists (LastDay y (1 + (m - 1) mod 12)); split; [apply LastDay_iff; auto|]; pose proof (Z.mod_pos_bound (d - 1) (LastDay y (1 + (m - 1) mod 12))); lia|].
  exists (- ((m - 1) / 12)). dlia.
Qed.
(** ** Adding months and years *)
Theorem C85_add_month : forall y m d k z, valid gregorian (y, m, d) -> 1901 <= y <= 32767 -> -32767 <= k <= 32755 -> months_later (y, m, d) k z -> fst (fst z) <= 32767 ->
  AddMonth (pack (y, m, d)) k = if 1901 <=? fst (fst z) then pack z else pack (y, m, d).
Proof.
  intros y m d k z V Y K ML YZ. destruct (C85_parts y m d V) as (_ & E & _); [lia|]. unfold AddMonth. rewrite E. destruct V as (l0 & L0 & D). pose proof (md_range _ _ _ _ L0) as [M L031].
  inversion ML as [y0 m0 d0 k0 y' m' l M' E' L' e1 e2 e3]; subst. cbn [fst] in *. rewrite (i16_id (k - 1)) by lia. rewrite (i16_id (m + (k - 1))) by lia.
  assert (Q : (m + (k - 1)) / 12 = y' - y /\ (m + (k - 1)) mod 12 = m' - 1) by dlia. destruct Q as [Q1 Q2]. rewrite Q1, Q2. replace (y + (y' - y)) with y' by lia. rewrite (i16_id y') by lia. unfold firstY. destruct (Z.leb_spec 1901 y') as [G|G]; auto.
  replace (m' - 1 + 1) with m' by lia. apply LastDay_iff in L'; auto. subst l.
  match goal with |- ToDate y' m' ?e = _ => assert (F : e = Z.min d (LastDay y' m')) end.
  { destruct (month_cases m' M') as [->|[->|C]]; [|rewrite LastDay_2; destruct (IsLeapYear y')|split_months C]; unfold LastDay; norm; rewrite ?andb_false_r, ?andb_true_r; try (destruct (d >? 30) eqn:?; lia); destruct (d >? 29) eqn:?, (d >? 28) eqn:?; cbn [andb]; lia. }
  rewrite F. apply C85_parts; [|lia]. pose proof (LastDay_pos y' m'). exists (LastDay y' m'). split; [apply LastDay_iff; auto|lia].
Qed.
Theorem C85_add_year : forall y m d k z, valid gregorian (y, m, d) -> 1901 <= y <= 32767 -> -32768 <= k <= 32767 -> months_later (y, m, d) (12 * k) z -> fst (fst z) <= 32767 ->
  AddYear (pack (y, m, d)) k = if 1901 <=? fst (fst z) then pack z else pack (y, m, d).
Proof.
  intros y m d k z V Y K ML YZ. destruct (C85_parts y m d V) as (_ & E & _); [lia|]. unfold AddYear. rewrite E. destruct V as (l0 & L0 & D). pose proof (md_range _ _ _ _ L0) as [M L031].
  inversion ML as [y0 m0 d0 k0 y' m' l M' E' L' e1 e2 e3]; subst. cbn [fst] in *. assert (m' = m) by lia. assert (y' = y + k) by lia. subst m' y'. unfold firstY. destruct (Z.leb_spec 1901 (y + k)) as [G|G]; auto.
  rewrite (i16_id (y + k)) by lia. apply LastDay_iff in L', L0; auto. subst l l0.
  match goal with |- ToDate _ _ ?e = _ => assert (F : e = Z.min d (LastDay (y + k) m)) end.
  { destruct (Z.eq_dec m 2) as [->|N].
    - rewrite !LastDay_2 in *. norm. destruct (IsLeapYear y), (IsLeapYear (y + k)); cbn [andb negb]; rewrite ?andb_false_r, ?andb_true_r; try destruct (d =? 29) eqn:?; lia.
    - replace (m =? 2) with false by lia. rewrite !andb_false_r. cbn [andb]. assert (LastDay (y + k) m = LastDay y m) by (unfold LastDay; replace (m =? 2) with false by lia; reflexivity). lia. }
  rewrite F. apply C85_parts; [|lia]. pose proof (LastDay_pos (y + k) m). exists (LastDay (y + k) m). split; [apply LastDay_iff; auto|lia].
Qed.
(** ** The Julian and Gregorian calendars of oocJulianDay *)
Definition sy (y m : Z) : Z := if m <? 3 then y - 1 else y.
Definition sm (m : Z) : Z := if m <? 3 then m + 12 else m.
Definition fm (m : Z) : Z := 306001 * (m + 1) / 10000.
Lemma default_is : default = 2361222. Proof. vm_compute. reflexivity. Qed.
Lemma jd_unfold : forall s d m y, 1 <= m <= 12 -> 1 <= y <= 28000 ->
  DateToJD true s d m y =
    let c := 2 - sy y m / 100 + sy y m / 100 / 4 in let j := d + 1461 * (sy y m + 4716) / 4 + fm (sm m) - 1524 in if c + j >=? s then c + j else j.
Proof.
  intros s d m y M Y. unfold DateToJD, sy, sm, fm. cbv zeta. destruct (m <? 3) eqn:G; cbn [andb]; rewrite ?(i16_id (y - 1)) by lia;
    match goal with |- (if ?a >=? _ then _ else _) = (if ?b >=? _ then _ else _) => replace b with a by lia end; destruct (_ >=? s); lia.
Qed.
(** The day within the shifted year. *)
Lemma fm_range : forall m d l, In m [3; 4; 5; 6; 7; 8; 9; 10; 11; 12; 13; 14] -> 1 <= d <= l -> (l <= 31) -> (In m [4; 6; 9; 11] -> l <= 30) -> (m = 14 -> l <= 29) ->
  123 <= d + fm m <= 488 /\ (d + fm m = 488 -> m = 14 /\ d = 29) /\ (d + fm m) * 10000 / 306001 = m + 1.
Proof.
  intros m d l I D L31 L30 L29. unfold fm. repeat destruct I as [I|I]; try contradiction; subst m;
    match goal with |- context [306001 * ?e / 10000] => let v := eval vm_compute in (306001 * e / 10000) in change (306001 * e / 10000) with v end;
    try (specialize (L29 eq_refl)); try (specialize (L30 ltac:(cbn; tauto))); (split; [lia|split; [lia|dlia]]).
Qed.
Lemma back : forall m y d, 1 <= m <= 12 -> 1 <= y <= 28000 -> 1 <= d <= 31 -> (In m [4; 6; 9; 11] -> d <= 30) -> (m = 2 -> d <= 29) -> (m = 2 -> d = 29 -> y mod 4 = 0) ->
  let B := d + 1461 * (sy y m + 4716) / 4 + fm (sm m) in
  (20 * B - 2442) / 7305 = sy y m + 4716 /\ B - 1461 * (sy y m + 4716) / 4 = d + fm (sm m) /\ 123 <= d + fm (sm m) <= 488 /\ (d + fm (sm m) = 488 -> m = 2 /\ d = 29) /\
  (d + fm (sm m)) * 10000 / 306001 = sm m + 1.
Proof.
  intros m y d M Y D D30 D29 DL. cbv zeta.
  destruct (fm_range (sm m) d d) as (F1 & F2 & F3); [|lia|lia| | |].
  - unfold sm. destruct (month_cases m M) as [->|C]; [|split_months C]; vm_compute; tauto.
  - intros I. apply D30. unfold sm in I. destruct (Z.ltb_spec m 3); auto. exfalso. cbn in I. lia.
  - intros I. apply D29. unfold sm in I. destruct (Z.ltb_spec m 3); lia.
  - assert (F2' : d + fm (sm m) = 488 -> m = 2 /\ d = 29) by (intros E; destruct (F2 E); split; auto; unfold sm in *; destruct (Z.ltb_spec m 3); lia).
    set (r := d + fm (sm m)) in *. split; [|split; [lia|auto]]. replace (d + 1461 * (sy y m + 4716) / 4 + fm (sm m)) with (1461 * (sy y m + 4716) / 4 + r) by lia.
    assert (S : r = 488 -> (sy y m + 4716) mod 4 = 3). { intros E. destruct (F2' E) as [-> ->]. specialize (DL eq_refl eq_refl). unfold sy. cbn [Z.ltb Z.compare Pos.compare Pos.compare_cont]. dlia. }
    clearbody r. set (Y' := sy y m + 4716) in *. clearbody Y'. clear - S F1. assert (C : r = 488 \/ r <= 487) by lia. destruct C as [C|C]; [specialize (S C)|clear S]; dlia.
Qed.
Definition jdJ (y m d : Z) : Z := d + 1461 * (sy y m + 4716) / 4 + fm (sm m) - 1524.
Definition jdC (y m : Z) : Z := 2 - sy y m / 100 + sy y m / 100 / 4.
Definition shape (leap : Z -> Prop) (y m d : Z) : Prop :=
  1 <= m <= 12 /\ 1 <= d <= 31 /\ (In m [4; 6; 9; 11] -> d <= 30) /\ (m = 2 -> d <= 29) /\ (m = 2 -> d = 29 -> leap y).
Lemma valid_shape : forall leap y m d, valid leap (y, m, d) -> shape leap y m d.
Proof.
  intros leap y m d (l & L & D). pose proof (md_range _ _ _ _ L) as [M L31]. split; [lia|]. split; [lia|]. inversion L as [y0 m0 I|y0 m0 I|y0 I|y0 I]; subst.
  - split; [intros J; exfalso; cbn in I, J; lia|]. split; intros ->; exfalso; cbn in I; lia.
  - split; [lia|]. split; intros ->; exfalso; cbn in I; lia.
  - split; [intros J; exfalso; cbn in J; lia|]. split; [lia|]. auto.
  - split; [intros J; exfalso; cbn in J; lia|]. split; [lia|]. intros; lia.
Qed.
Lemma greg4 : forall y, gregorian y -> y mod 4 = 0. Proof. intros y [[H _]|H]; apply div_iff; try lia; auto. apply Z.divide_trans with (m := 400); auto. exists 100. reflexivity. Qed.
Lemma jul4 : forall y, julian y -> y mod 4 = 0. Proof. intros y H. apply div_iff; [lia|auto]. Qed.
Lemma fm_mono : forall m, 3 <= m <= 14 -> (m <= 8 -> fm m <= 275) /\ (m = 9 -> fm m = 306) /\ (10 <= m -> 336 <= fm m) /\ 122 <= fm m.
Proof.
  intros m M. assert (C : m = 3 \/ m = 4 \/ m = 5 \/ m = 6 \/ m = 7 \/ m = 8 \/ m = 9 \/ m = 10 \/ m = 11 \/ m = 12 \/ m = 13 \/ m = 14) by lia.
  split_months C; match goal with |- context [fm ?e] => let v := eval vm_compute in (fm e) in change (fm e) with v end; lia.
Qed.
Lemma sm_range : forall m, 1 <= m <= 12 -> 3 <= sm m <= 14. Proof. intros m M. unfold sm. destruct (Z.ltb_spec m 3); lia. Qed.
Lemma jd_jul : forall y m d, shape julian y m d -> earlier (y, m, d) (1752, 9, 3) -> 1 <= y -> DateToJD true default d m y = jdJ y m d /\ jdJ y m d < default.
Proof.
  intros y m d (M & D & D30 & D29 & DL) E Y. unfold earlier in E. rewrite default_is, jd_unfold by lia. cbv zeta. fold (jdJ y m d). fold (jdC y m).
  destruct (back m y d) as (_ & _ & R & _ & _); auto; [lia|intros; apply jul4; auto|].
  assert (B : jdJ y m d < 2361222).
  { destruct (fm_mono (sm m) (sm_range m M)) as (F1 & F2 & F3 & _). unfold jdJ. assert (S : sy y m <= 1751 \/ y = 1752 /\ 3 <= m) by (unfold sy; destruct (Z.ltb_spec m 3); lia). destruct S as [S|[-> S]].
    - clear - S R. dlia.
    - assert (sm m = m) by (unfold sm; destruct (Z.ltb_spec m 3); lia). rewrite H in *. unfold sy. replace (m <? 3) with false by lia. change (1461 * (1752 + 4716) / 4) with 2362437. lia. }
  split; auto. replace (jdC y m + jdJ y m d >=? 2361222) with false; auto. symmetry. unfold jdC. destruct (Z.le_gt_cases 200 (sy y m)) as [G|G].
  - assert (2 - sy y m / 100 + sy y m / 100 / 4 <= 0) by (clear - G; dlia). lia.
  - assert (jdJ y m d < 2000000) by (unfold jdJ; clear - G R; dlia). assert (0 <= sy y m) by (unfold sy; destruct (m <? 3); lia). assert (2 - sy y m / 100 + sy y m / 100 / 4 <= 2) by (clear - H0; dlia). lia.
Qed.
Lemma jd_greg : forall y m d, shape gregorian y m d -> ~ earlier (y, m, d) (1752, 9, 14) -> y <= 28000 -> DateToJD true default d m y = jdC y m + jdJ y m d /\ default <= jdC y m + jdJ y m d.
Proof.
  intros y m d (M & D & D30 & D29 & DL) E Y. unfold earlier in E. rewrite default_is, jd_unfold by lia. cbv zeta. fold (jdJ y m d). fold (jdC y m).
  destruct (back m y d) as (_ & _ & R & _ & _); auto; [lia|intros; apply greg4; auto|].
  assert (B : 2361222 <= jdC y m + jdJ y m d).
  { destruct (fm_mono (sm m) (sm_range m M)) as (F1 & F2 & F3 & _). unfold jdJ, jdC. assert (S : 1753 <= sy y m \/ sy y m = 1752 /\ (m = 9 /\ 14 <= d \/ 10 <= sm m)) by (unfold sy, sm; destruct (Z.ltb_spec m 3); lia). destruct S as [S|[-> S]].
    - clear - S R. dlia.
    - change (1461 * (1752 + 4716) / 4) with 2362437. change (2 - 1752 / 100 + 1752 / 100 / 4) with (-11). destruct S as [[-> S]|S]; [rewrite F2 by reflexivity|]; lia. }
  split; auto. replace (jdC y m + jdJ y m d >=? 2361222) with true by lia. reflexivity.
Qed.
Lemma i8_id : forall x, -128 <= x < 128 -> wrap_s 8 x = x.
Proof. intros x H. apply wrap_s_id; [lia|]. unfold in_int. change (2 ^ (8 - 1)) with 128. lia. Qed.
Lemma unshift : forall B y m d, 1 <= m <= 12 -> 1 <= y <= 28000 -> 1 <= d <= 31 ->
  B = d + 1461 * (sy y m + 4716) / 4 + fm (sm m) -> (20 * B - 2442) / 7305 = sy y m + 4716 -> (d + fm (sm m)) * 10000 / 306001 = sm m + 1 ->
  (let year := i16 ((20 * B - 2442) / 7305) in
  let D := 1461 * year / 4 in
  let month := wrap_s 8 (i16 ((B - D) * 10000 / 306001)) in
  let day := wrap_s 8 (i16 (B - D - 306001 * month / 10000)) in
  let month := if month >? 13 then month - 13 else month - 1 in
  let year := if month <? 3 then i16 (year - 4715) else i16 (year - 4716) in
  (day, month, year)) = (d, m, y).
Proof.
  intros B y m d M Y D EB E1 E2. rewrite E1. assert (S : 0 <= sy y m <= 28000) by (unfold sy; destruct (m <? 3); lia). rewrite (i16_id (sy y m + 4716)) by lia. cbv zeta.
  replace (B - 1461 * (sy y m + 4716) / 4) with (d + fm (sm m)) by lia. rewrite E2. pose proof (sm_range m M). rewrite (i16_id (sm m + 1)), (i8_id (sm m + 1)) by lia. fold (fm (sm m)). replace (d + fm (sm m) - fm (sm m)) with d by lia.
  rewrite (i16_id d), (i8_id d) by lia. unfold sm, sy in *. destruct (Z.ltb_spec m 3).
  - replace (m + 12 + 1 >? 13) with true by lia. replace (m + 12 + 1 - 13) with m by lia. replace (m <? 3) with true by lia. rewrite (i16_id (y - 1 + 4716 - 4715)) by lia. repeat f_equal; lia.
  - replace (m + 1 >? 13) with false by lia. replace (m + 1 - 1) with m by lia. replace (m <? 3) with false by lia. rewrite i16_id by lia. repeat f_equal; lia.
Qed.
(** ** English dates: the day number gives the date back *)
Theorem C85_english : forall y m d, english (y, m, d) -> 1 <= y <= 28000 -> DaysToDate true default (DateToDays true default d m y) = (d, m, y).
Proof.
  intros y m d E Y. unfold DaysToDate, DateToDays. match goal with |- JDToDate _ _ ?e = _ => replace e with (DateToJD true default d m y) by lia end. destruct E as [[V E]|[V E]]; apply valid_shape in V; pose proof V as (M & D & D30 & D29 & DL).
  - destruct (jd_jul y m d V E) as [-> L]; [lia|]. destruct (back m y d) as (B1 & B2 & R & _ & B3); auto; [intros; apply jul4; auto|]. unfold JDToDate. replace (jdJ y m d >=? default) with false by lia. cbn [andb]. apply unshift; auto; [unfold jdJ; lia|].
    replace (jdJ y m d + 1524) with (d + 1461 * (sy y m + 4716) / 4 + fm (sm m)) by (unfold jdJ; lia). auto.
  - destruct (jd_greg y m d V E) as [-> L]; [lia|]. destruct (back m y d) as (B1 & B2 & R & R2 & B3); auto; [intros; apply greg4; auto|]. unfold JDToDate. replace (jdC y m + jdJ y m d >=? default) with true by lia. cbn [andb].
    assert (W : (4 * (jdC y m + jdJ y m d) - 7468865) / 146097 = sy y m / 100 - 4).
    { assert (S : d + fm (sm m) = 488 -> sy y m mod 100 = 99 -> sy y m / 100 mod 4 = 3).
      { intros F. destruct (R2 F) as [-> ->]. specialize (DL eq_refl eq_refl). unfold sy. cbn [Z.ltb Z.compare Pos.compare Pos.compare_cont]. intros G. unfold gregorian in DL. rewrite !div_iff in DL by lia. clear - DL G. destruct DL as [[DL1 DL2]|DL]; dlia. }
      unfold jdC, jdJ. replace (d + 1461 * (sy y m + 4716) / 4 + fm (sm m) - 1524) with (1461 * (sy y m + 4716) / 4 + (d + fm (sm m)) - 1524) by lia. set (r := d + fm (sm m)) in *. clearbody r. set (a := sy y m) in *. clearbody a.
      assert (N : 1461 * (a + 4716) / 4 = 36525 * (a / 100) + 1461 * (a mod 100) / 4 + 1722519) by (clear; dlia). rewrite N. clear N. pose proof (Z.mod_pos_bound a 100 ltac:(lia)) as U. set (u := a mod 100) in *. clearbody u. set (h := a / 100) in *. clearbody h. clear - S R U.
      assert (C : r <= 487 \/ r = 488) by lia. destruct C as [C|C]; [clear S; dlia|]. specialize (S C). assert (C2 : u <= 98 \/ u = 99) by lia. destruct C2 as [C2|C2]; [clear S; dlia|]. specialize (S C2). dlia. }
    rewrite W. apply unshift; auto; [unfold jdC, jdJ; clear; dlia|]. match goal with |- (20 * ?b - 2442) / _ = _ => replace b with (d + 1461 * (sy y m + 4716) / 4 + fm (sm m)) end; auto. unfold jdC, jdJ. clear. dlia.
Qed.
Lemma next_shape : forall leap y m d y' m' d', next leap (y, m, d) (y', m', d') -> valid leap (y, m, d) -> 
  shape leap y' m' d' /\ (y' = y /\ m' = m /\ d' = d + 1 \/ y' = y /\ m' = m + 1 /\ d' = 1 /\ 1 <= m < 12 /\ month_days leap y m d \/ y' = y + 1 /\ m' = 1 /\ d' = 1 /\ m = 12 /\ d = 31).
Proof.
  intros leap y m d y' m' d' N V. inversion N as [a b c l L Q e1 e2|a b l L Q e1 e2|a e1 e2]; subst.
  - split; [|auto]. destruct V as (l2 & _ & D2). apply valid_shape. exists l. split; auto. lia.
  - pose proof (md_range _ _ _ _ L) as [M _]. split; [unfold shape; lia|]. right; left. repeat split; auto; lia.
  - split; [unfold shape; lia|]. right; right. auto.
Qed.
Lemma step_same : forall leap y m d, 1 <= m < 12 -> m <> 2 -> month_days leap y m d -> sy y (m + 1) = sy y m /\ fm (sm (m + 1)) = fm (sm m) + d.
Proof.
  intros leap y m d M N L. assert (C : m = 1 \/ m = 3 \/ m = 4 \/ m = 5 \/ m = 6 \/ m = 7 \/ m = 8 \/ m = 9 \/ m = 10 \/ m = 11) by lia.
  inversion L as [y0 m0 I|y0 m0 I|y0 I|y0 I]; subst; try lia; split_months C; cbn in I; try lia; split; reflexivity.
Qed.
Lemma jd_next : forall leap y m d y' m' d', next leap (y, m, d) (y', m', d') -> valid leap (y, m, d) ->
  (leap = julian -> jdJ y' m' d' = jdJ y m d + 1) /\ (leap = gregorian -> jdC y' m' + jdJ y' m' d' = jdC y m + jdJ y m d + 1).
Proof.
  intros leap y m d y' m' d' N V. destruct (next_shape _ _ _ _ _ _ _ N V) as [_ [(-> & -> & ->)|[(-> & -> & -> & M & L)|(-> & -> & -> & -> & ->)]]].
  - unfold jdJ. split; intros; lia.
  - destruct (Z.eq_dec m 2) as [->|N2].
    + change (2 + 1) with 3. unfold jdJ, jdC. change (sy y 3) with y. change (sy y 2) with (y - 1). change (fm (sm 3)) with 122. change (fm (sm 2)) with 459. split; intros ->.
      * inversion L as [y0 m0 I|y0 m0 I|y0 I|y0 I]; subst; try (exfalso; cbn in I; lia); unfold julian in I; rewrite div_iff in I by lia; clear - I; dlia.
      * inversion L as [y0 m0 I|y0 m0 I|y0 I|y0 I]; subst; try (exfalso; cbn in I; lia); unfold gregorian in I; rewrite !div_iff in I by lia; clear - I; [destruct I as [[I1 I2]|I]; dlia|].
        assert (J : y mod 4 <> 0 \/ y mod 100 = 0 /\ y mod 400 <> 0) by (destruct (Z.eq_dec (y mod 4) 0), (Z.eq_dec (y mod 100) 0), (Z.eq_dec (y mod 400) 0); tauto). clear I. destruct J as [J|[J1 J2]]; dlia.
    + destruct (step_same leap y m d M N2 L) as [S1 S2]. unfold jdJ, jdC. rewrite S1, S2. split; intros; lia.
  - unfold jdJ, jdC. change (sm 12) with 12. change (sm 1) with 13. change (fm 12) with 397. change (fm 13) with 428. change (sy y 12) with y. replace (sy (y + 1) 1) with y by (unfold sy; cbn; lia). split; intros; lia.
Qed.
(** ** English dates: the numbers count the days; 17 November 1858 has the number 0 *)
Theorem C85_english_next : forall y m d y' m' d', english_next (y, m, d) (y', m', d') -> 1 <= y -> y' <= 28000 -> DateToDays true default d' m' y' = DateToDays true default d m y + 1.
Proof.
  intros y m d y' m' d' N Y Y'. unfold DateToDays. inversion N as [x z E1 E2 NX e1 e2|e1 e2|x z E1 E2 NX e1 e2]; subst.
  - assert (V : valid julian (y, m, d) /\ earlier (y, m, d) (1752, 9, 3)).
    { destruct E1 as [E1|[V G]]; auto. exfalso. apply G. inversion NX as [a b c l L Q q1 q2|a b l L Q q1 q2|a q1 q2]; subst; unfold earlier in *; lia. }
    destruct V as [V E]. destruct (next_shape _ _ _ _ _ _ _ NX V) as [S' C]. destruct (jd_next _ _ _ _ _ _ _ NX V) as [J _]. specialize (J eq_refl).
    destruct (jd_jul y m d (valid_shape _ _ _ _ V) E Y) as [-> _]. destruct (jd_jul y' m' d' S' E2) as [-> _]; lia.
  - vm_compute. reflexivity.
  - destruct E2 as [[V G]|[V G]]; [exfalso; apply E1; unfold earlier in *; lia|].
    destruct (next_shape _ _ _ _ _ _ _ NX V) as [S' C]. destruct (jd_next _ _ _ _ _ _ _ NX V) as [_ J]. specialize (J eq_refl).
    destruct (jd_greg y m d (valid_shape _ _ _ _ V) G) as [-> _]; [lia|]. destruct (jd_greg y' m' d' S') as [-> _]; [|lia|lia]. unfold earlier in *. lia.
Qed.
Theorem C85_english_zero : DateToDays true default 17 11 1858 = 0. Proof. vm_compute. reflexivity. Qed.
(** The hypotheses are met. *)
Example C85_met : in_range (2026, 11, 17) /\ NumberOfDays (pack (2026, 11, 17)) = 45976 /\ DayOfWeek (pack (2026, 11, 17)) = 1 /\ AddDay (pack (2026, 11, 17)) 105 = Ok (pack (2027, 3, 2)) /\
  AddMonth (pack (2026, 10, 31)) 4 = pack (2027, 2, 28) /\ AddYear (pack (2024, 2, 29)) 1 = pack (2025, 2, 28) /\ months_later (2026, 10, 31) 4 (2027, 2, 28) /\
  english (1700, 2, 29) /\ english_next (1752, 9, 2) (1752, 9, 14) /\ english_next (1900, 2, 28) (1900, 3, 1) /\ DateToDays true default 17 11 2026 = 61361.
Proof.
  split; [apply in_range_inv; vm_compute; intuition discriminate|]. do 5 (split; [vm_compute; reflexivity|]).
  split; [apply (ml 2026 10 31 4 2027 2 28); [lia|lia|apply LastDay_iff; [lia|reflexivity]]|].
  split. { left. split; [exists 29; split; [apply md_29; exists 425; reflexivity|lia]|unfold earlier; lia]. } split. { apply en_switch. }
  split; [|vm_compute; reflexivity]. assert (L : month_days gregorian 1900 2 28) by (apply LastDay_iff; [lia|reflexivity]). apply en_gregorian; [unfold earlier; lia|right; split; [exists 28; split; auto; lia|unfold earlier; lia]|].
  apply (nx_month gregorian 1900 2 28); [auto|lia].
Qed.
Print Assumptions C85_days_partial.
Print Assumptions C85_days_refuted.
Print Assumptions C85_add_day.
Print Assumptions C85_weekday.
Print Assumptions C85_parts.
Print Assumptions C85_made.
Print Assumptions C85_add_month.
Print Assumptions C85_add_year.
Print Assumptions C85_english.
Print Assumptions C85_english_next.
Print Assumptions C85_english_zero.
