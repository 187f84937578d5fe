(** C103: times. *)
From Verif Require Import Base UtimeModel UtimeSpec.
Definition value (t : timeval) : Z := micros (epoch t) (second t) (usec t).
Definition good (t : timeval) : Prop := proper (epoch t) (second t) (usec t).
Definition any (t : timeval) : Prop := values (epoch t) (second t) (usec t).
Lemma ok_inj : forall A (x y : A), Ok x = Ok y -> y = x. Proof. intros A x y H. injection H as H. symmetry. exact H. Qed.
Lemma chk_ok : forall x y, chk 32 x = Ok y -> y = x /\ in_int 32 x.
Proof. intros x y H. unfold chk in H. destruct (in_intb 32 x) eqn:E; [|discriminate]. injection H as <-. split; [reflexivity|]. apply in_intb_iff, E. Qed.
Lemma chk_in : forall x, -2147483648 <= x <= 2147483647 -> chk 32 x = Ok x.
Proof. intros x H. unfold chk, in_intb. change (32 - 1) with 31. replace (_ && _) with true by lia. reflexivity. Qed.
Lemma chk_cases : forall x, chk 32 x = Ok x /\ -2147483648 <= x <= 2147483647 \/ chk 32 x = UB /\ ~ -2147483648 <= x <= 2147483647.
Proof. intros x. unfold chk, in_intb. change (32 - 1) with 31. destruct ((- 2 ^ 31 <=? x) && (x <? 2 ^ 31)) eqn:E; [left|right]; (split; [reflexivity|lia]). Qed.
Ltac go := repeat (match goal with
  | H : context [chk 32 ?x] |- _ => let A := fresh in let B := fresh in destruct (chk_cases x) as [[A B]|[A B]]; rewrite A in H; clear A; cbn [bind] in H; [|try (discriminate H); try lia]
  | H : context [if ?b then _ else _] |- _ => let E := fresh "E" in destruct b eqn:E; cbn [bind] in H
  | H : Ok _ = Ok _ |- _ => injection H as <-
  end); cbn [epoch second usec] in *; try discriminate.
Ltac un := unfold good, any, proper, values, value, micros, in_int, usecsPerSec, maxval in *; change (2 ^ (32 - 1)) with 2147483648 in *; change (2 ^ 31) with 2147483648 in *.

(** The difference of two times is exact and in its ranges. *)
Theorem C103_sub : forall a b c, good a -> good b -> Sub a b = Ok c -> value c = value a - value b /\ good c.
Proof. intros a b c A B E. unfold Sub in E. un. go; lia. Qed.
(** It exists if the epochs can be subtracted. *)
Theorem C103_sub_exists : forall a b, good a -> good b -> -2147483646 <= epoch a - epoch b <= 2147483647 -> exists c, Sub a b = Ok c.
Proof.
  intros a b A B R. un. unfold Sub, maxval, usecsPerSec. rewrite (chk_in (epoch a - epoch b)) by lia. cbn [bind]. destruct (Z.leb_spec (second b) (second a)) as [C|C].
  - rewrite (chk_in (second a - second b)) by lia. cbn [bind]. rewrite (chk_in (usec a - usec b)) by lia. cbn [bind]. destruct (Z.ltb_spec (usec a - usec b) 0); [|eexists; reflexivity]. rewrite (chk_in (usec a - usec b + 1000000)) by lia. cbn [bind].
    destruct (Z.eqb_spec (second a - second b) 0); [rewrite (chk_in (epoch a - epoch b - 1)) by lia|rewrite (chk_in (second a - second b - 1)) by lia]; eexists; reflexivity.
  - rewrite (chk_in (epoch a - epoch b - 1)) by lia. cbn [bind]. rewrite (chk_in (- second b)) by lia. cbn [bind]. rewrite (chk_in (- second b + 2147483647)) by lia. cbn [bind]. rewrite (chk_in (- second b + 2147483647 + 1)) by lia. cbn [bind]. rewrite (chk_in (- second b + 2147483647 + 1 + second a)) by lia. cbn [bind].
    rewrite (chk_in (usec a - usec b)) by lia. cbn [bind]. destruct (Z.ltb_spec (usec a - usec b) 0); [|eexists; reflexivity]. rewrite (chk_in (usec a - usec b + 1000000)) by lia. cbn [bind].
    destruct (Z.eqb_spec (- second b + 2147483647 + 1 + second a) 0); [rewrite (chk_in (epoch a - epoch b - 1 - 1)) by lia|rewrite (chk_in (- second b + 2147483647 + 1 + second a - 1)) by lia]; eexists; reflexivity.
Qed.
(** The sum of two times is exact; it is in its ranges unless the microseconds give exactly one second. *)
Theorem C103_add_partial : forall a b c, good a -> good b -> Add a b = Ok c -> value c = value a + value b /\ (usec a + usec b <> 1000000 -> good c).
Proof. intros a b c A B E. unfold Add in E. un. go; lia. Qed.
Theorem C103_add_exists : forall a b, good a -> good b -> -2147483648 <= epoch a + epoch b <= 2147483646 -> exists c, Add a b = Ok c.
Proof.
  intros a b A B R. un. unfold Add, maxval, usecsPerSec. rewrite (chk_in (epoch a + epoch b)) by lia. cbn [bind]. destruct (Z.ltb_spec (2147483647 - second b) (second a)) as [C|C].
  - rewrite (chk_in (epoch a + epoch b + 1)) by lia. cbn [bind]. rewrite (chk_in (second a - 2147483647)) by lia. cbn [bind]. rewrite (chk_in (second a - 2147483647 - 1)) by lia. cbn [bind]. rewrite (chk_in (second a - 2147483647 - 1 + second b)) by lia. cbn [bind]. rewrite (chk_in (usec a + usec b)) by lia. cbn [bind].
    destruct (Z.ltb_spec 1000000 (usec a + usec b)); [|eexists; reflexivity]. rewrite (chk_in (usec a + usec b - 1000000)) by lia. cbn [bind]. destruct (Z.eqb_spec (second a - 2147483647 - 1 + second b) 2147483647); [lia|]. rewrite (chk_in (second a - 2147483647 - 1 + second b + 1)) by lia. eexists; reflexivity.
  - rewrite (chk_in (second a + second b)) by lia. cbn [bind]. rewrite (chk_in (usec a + usec b)) by lia. cbn [bind].
    destruct (Z.ltb_spec 1000000 (usec a + usec b)); [|eexists; reflexivity]. rewrite (chk_in (usec a + usec b - 1000000)) by lia. cbn [bind]. destruct (Z.eqb_spec (second a + second b) 2147483647); [rewrite (chk_in (epoch a + epoch b + 1)) by lia|rewrite (chk_in (second a + second b + 1)) by lia]; eexists; reflexivity.
Qed.
(** A sum minus one of its parts is the other one. *)
Theorem C103_add_sub : forall a b c, good a -> good b -> Add a b = Ok c -> -2147483646 <= epoch c - epoch b -> epoch c - epoch b <= 2147483647 -> Sub c b = Ok a.
Proof.
  intros a b c A B E R1 R2. destruct (C103_add_partial a b c A B E) as [V _].
  assert (K : exists d, Sub c b = Ok d /\ good d /\ value d = value c - value b).
  { assert (Y : usec c = usec a + usec b \/ usec c = usec a + usec b - 1000000) by (unfold Add in E; un; go; lia). assert (X : in_int 32 (epoch c) /\ 0 <= second c < 2 ^ 31 /\ 0 <= usec c <= 1000000) by (unfold Add in E; un; go; lia).
    destruct (Sub c b) as [d| | |] eqn:ED; unfold Sub in ED; un; [exists d; split; [reflexivity|]; go; lia|exfalso; go; try discriminate; lia ..]. }
  destruct K as (d & -> & G & VD). f_equal. destruct d as [e s u], a as [e' s' u']. un. cbn [epoch second usec] in *. assert (u = u') by lia. assert (s = s') by lia. assert (e = e') by lia. congruence.
Qed.
(** Comparing times compares what they mean. *)
Theorem C103_compare : forall a b, good a -> good b -> Compare a b = Z.sgn (value a - value b).
Proof.
  intros a b A B. unfold Compare, ReturnVal. un. destruct (epoch a =? epoch b) eqn:E1; cbn [negb].
  - destruct (second a =? second b) eqn:E2; cbn [negb].
    + destruct (usec a <? usec b) eqn:E3; [symmetry; apply Z.sgn_neg; lia|]. destruct (usec b <? usec a) eqn:E4; [symmetry; apply Z.sgn_pos; lia|]. symmetry. apply Z.sgn_null_iff. lia.
    + destruct (second a <? second b) eqn:E3; [symmetry; apply Z.sgn_neg; lia|]. destruct (second b <? second a) eqn:E4; [symmetry; apply Z.sgn_pos; lia|lia].
  - destruct (epoch a <? epoch b) eqn:E3; [symmetry; apply Z.sgn_neg; lia|]. destruct (epoch b <? epoch a) eqn:E4; [symmetry; apply Z.sgn_pos; lia|lia].
Qed.
(** A time is set to the value that was asked for if the microseconds are in their range; seconds may be negative. *)
Theorem C103_set_partial : forall e s u, values e s u -> 0 <= u < 1000000 -> (e = -2147483648 -> 0 <= s) -> exists t, CreateAndSet e s u = Ok t /\ good t /\ value t = micros e s u.
Proof.
  intros e s u V U L. unfold CreateAndSet, Normalize. un. cbn [epoch second usec]. destruct (Z.ltb_spec s 0) as [C|C].
  - rewrite (chk_in (s + 1)) by lia. cbn [bind]. rewrite (chk_in (s + 1 + 2147483647)) by lia. cbn [bind]. rewrite (chk_in (e - 1)) by lia. cbn [bind epoch second usec]. replace (u <? 0) with false by lia. replace (1000000 <=? u) with false by lia. eexists. split; [reflexivity|]. cbn [epoch second usec]. lia.
  - cbn [bind epoch second usec]. replace (u <? 0) with false by lia. replace (1000000 <=? u) with false by lia. eexists. split; [reflexivity|]. cbn [epoch second usec]. lia.
Qed.
(** Negative microseconds always give a wrong time: they are added to the seconds instead of taken away. *)
Theorem C103_negative_refuted : forall e s u t, values e s u -> 0 <= s -> u < 0 -> CreateAndSet e s u = Ok t -> value t = micros e s u - 2 * (u / 1000000) * 1000000 /\ micros e s u < value t.
Proof.
  intros e s u t V S U E. pose proof (Z.div_mod u 1000000 ltac:(lia)) as DM. pose proof (Z.mod_pos_bound u 1000000 ltac:(lia)) as MB. unfold CreateAndSet, Normalize in E. un. cbn [epoch second usec] in E. replace (s <? 0) with false in E by lia. cbn [bind epoch second usec] in E. set (q := u / 1000000) in *. set (m := u mod 1000000) in *. clearbody q m. replace (u <? 0) with true in E by lia.
  replace (s <? q) with false in E by lia. destruct (chk_cases (s - q)) as [[A B]|[A B]]; rewrite A in E; cbn [bind] in E; [|discriminate]. injection E as <-. cbn [epoch second usec]. lia.
Qed.
(** A million microseconds or more: the seconds become negative and the time is one second late, or there is an overflow, unless the last second of an epoch is met exactly. *)
Theorem C103_many_refuted : forall e s u t, values e s u -> 0 <= s -> 1000000 <= u -> CreateAndSet e s u = Ok t -> s + u / 1000000 <> 2147483647 -> second t < 0 /\ value t = micros e s u + 1000000.
Proof.
  intros e s u t V S U E N. pose proof (Z.div_mod u 1000000 ltac:(lia)) as DM. pose proof (Z.mod_pos_bound u 1000000 ltac:(lia)) as MB. unfold CreateAndSet, Normalize in E. un. cbn [epoch second usec] in E. replace (s <? 0) with false in E by lia. cbn [bind epoch second usec] in E. set (q := u / 1000000) in *. set (m := u mod 1000000) in *. clearbody q m. replace (u <? 0) with false in E by lia. replace (1000000 <=? u) with true in E by lia.
  destruct (Z.leb_spec (2147483647 - s) (q)) as [C|C].
  - destruct (chk_cases (s + q)) as [[A B]|[A B]]; rewrite A in E; cbn [bind] in E; [lia|discriminate].
  - rewrite (chk_in (2147483647 - s)) in E by lia. cbn [bind] in E. rewrite (chk_in (q - (2147483647 - s))) in E by lia. cbn [bind] in E. destruct (chk_cases (e + 1)) as [[A B]|[A B]]; rewrite A in E; cbn [bind] in E; [|discriminate E]. clear A. apply ok_inj in E. rewrite E. cbn [epoch second usec]. split; lia.
Qed.
(** The sum of half a second and half a second is not one second. *)
Theorem C103_add_refuted : exists a b c one, CreateAndSet 0 0 500000 = Ok a /\ CreateAndSet 0 0 500000 = Ok b /\ CreateAndSet 0 1 0 = Ok one /\ Add a b = Ok c /\ value c = value one /\ Compare c one = -1.
Proof. eexists. eexists. eexists. eexists. split; [reflexivity|]. split; [reflexivity|]. split; [reflexivity|]. split; [vm_compute; reflexivity|]. split; vm_compute; reflexivity. Qed.
(** Cases that meet the hypotheses. *)
Example C103_sub_met : exists a b c, CreateAndSet 1 5 300000 = Ok a /\ CreateAndSet 0 (-7) 400000 = Ok b /\ good a /\ good b /\ Sub a b = Ok c /\ c = {| epoch := 1; second := 11; usec := 900000 |}.
Proof. eexists. eexists. eexists. split; [reflexivity|]. split; [vm_compute; reflexivity|]. split; [un; cbn; lia|]. split; [un; cbn; lia|]. split; vm_compute; reflexivity. Qed.
Example C103_add_met : exists c, Add {| epoch := 0; second := 2147483647; usec := 600000 |} {| epoch := 3; second := 0; usec := 600000 |} = Ok c /\ c = {| epoch := 4; second := 0; usec := 200000 |} /\ Sub c {| epoch := 3; second := 0; usec := 600000 |} = Ok {| epoch := 0; second := 2147483647; usec := 600000 |}.
Proof. eexists. split; [vm_compute; reflexivity|]. split; vm_compute; reflexivity. Qed.
Example C103_negative_met : exists t, CreateAndSet 0 5 (-1) = Ok t /\ t = {| epoch := 0; second := 6; usec := 999999 |}. Proof. eexists. split; vm_compute; reflexivity. Qed.
Example C103_many_met : exists t, CreateAndSet 0 5 1000000 = Ok t /\ t = {| epoch := 1; second := -2147483641; usec := 0 |}. Proof. eexists. split; vm_compute; reflexivity. Qed.

Print Assumptions C103_sub.
Print Assumptions C103_sub_exists.
Print Assumptions C103_add_partial.
Print Assumptions C103_add_exists.
Print Assumptions C103_add_sub.
Print Assumptions C103_compare.
Print Assumptions C103_set_partial.
Print Assumptions C103_negative_refuted.
Print Assumptions C103_many_refuted.
Print Assumptions C103_add_refuted.
