(** C86: times of day and time stamps. *)
From Verif Require Import Base CalModel CalSpec CalProps ClkModel ClkSpec.

Lemma toHMS : forall h m s, clock (h, m, s) -> ToHMS (packT (h, m, s)) = (h, m, s).
Proof.
  intros h m s (H & M & S). unfold ToHMS, packT. replace (((h * 64 + m) * 64 + s) / 4096) with h by dlia. replace (((h * 64 + m) * 64 + s) / 64 mod 64) with m by dlia. replace (((h * 64 + m) * 64 + s) mod 64) with s by dlia.
  rewrite !i16_id by lia. reflexivity.
Qed.
Lemma toTime : forall h m s, clock (h, m, s) -> ToTime h m s = packT (h, m, s).
Proof. intros h m s (H & M & S). unfold ToTime, packT. rewrite !Z.mod_small by lia. reflexivity. Qed.
Lemma seconds_inj : forall t u, clock t -> clock u -> seconds t = seconds u -> t = u.
Proof. intros [[h m] s] [[h' m'] s'] (H & M & S) (H' & M' & S') E. unfold seconds in E. assert (h = h') by lia. assert (m = m') by lia. assert (s = s') by lia. congruence. Qed.
(** ** Taking times apart and putting them together *)
Theorem C86_parts : forall h m s, clock (h, m, s) -> ToTime h m s = packT (h, m, s) /\ ToHMS (packT (h, m, s)) = (h, m, s).
Proof. intros h m s C. split; [apply toTime|apply toHMS]; auto. Qed.
Theorem C86_made : forall h m s, exists t, clock t /\ ToTime h m s = packT t.
Proof.
  intros h m s. exists (h mod 24, m mod 60, s mod 60). split; [|reflexivity]. unfold clock. repeat split; apply Z.mod_pos_bound; lia.
Qed.
(** ** Adding hours, minutes and seconds is addition on the clock.  Missing: the last 59 minutes and seconds of the range of INTEGER *)
Lemma carry_spec : forall h m, 0 <= h < 24 -> -32768 <= m < 32768 -> exists h' m', carry h m = (h', m') /\ 0 <= h' < 24 /\ 0 <= m' < 60 /\ 60 * h' + m' = (60 * h + m) mod 1440.
Proof.
  intros h m H M. unfold carry. destruct ((m <? 0) || (m >=? 60)) eqn:E.
  - rewrite (i16_id ((h + m / 60) mod 24)), (i16_id (m mod 60)) by dlia. exists ((h + m / 60) mod 24), (m mod 60). split; auto. dlia.
  - exists h, m. assert (0 <= m < 60) by (apply orb_false_iff in E; lia). rewrite Z.mod_small by lia. repeat split; auto; lia.
Qed.
Theorem C86_add_partial : forall t k, clock t -> -32768 <= k ->
  (k <= 32767 -> exists u, clock u /\ AddHour (packT t) k = packT u /\ seconds u = (seconds t + 3600 * k) mod 86400) /\
  (k <= 32767 - 59 -> exists u, clock u /\ AddMinute (packT t) k = packT u /\ seconds u = (seconds t + 60 * k) mod 86400) /\
  (k <= 32767 - 59 -> exists u, clock u /\ AddSecond (packT t) k = packT u /\ seconds u = (seconds t + k) mod 86400).
Proof.
  intros [[h m] s] k C K. pose proof C as (H & M & S). split; [|split]; intros K2.
  - unfold AddHour. rewrite toHMS by auto. rewrite i16_id by dlia. exists ((h + k) mod 24, m, s). assert (C2 : clock ((h + k) mod 24, m, s)) by (unfold clock; dlia). split; auto. split; [apply toTime; auto|]. unfold seconds. clear - H M S. dlia.
  - unfold AddMinute. rewrite toHMS by auto. rewrite i16_id by lia. destruct (carry_spec h (m + k)) as (h' & m' & -> & H' & M' & E); [lia|lia|]. exists (h', m', s). assert (C2 : clock (h', m', s)) by (unfold clock; lia). split; auto. split; [apply toTime; auto|].
    unfold seconds. clear - E S H' M'. dlia.
  - unfold AddSecond. rewrite toHMS by auto. rewrite (i16_id (s + k)) by lia. destruct ((s + k <? 0) || (s + k >=? 60)) eqn:G.
    + rewrite (i16_id ((s + k) / 60)), (i16_id (m + (s + k) / 60)), (i16_id ((s + k) mod 60)) by dlia. destruct (carry_spec h (m + (s + k) / 60)) as (h' & m' & -> & H' & M' & E); [lia|dlia|].
      exists (h', m', (s + k) mod 60). assert (C2 : clock (h', m', (s + k) mod 60)) by (unfold clock; dlia). split; auto. split; [apply toTime; auto|]. unfold seconds. clear - E H' M'. dlia.
    + apply orb_false_iff in G. exists (h, m, s + k). assert (C2 : clock (h, m, s + k)) by (unfold clock; lia). split; auto. split; [apply toTime; auto|]. unfold seconds. rewrite Z.mod_small by lia. lia.
Qed.
(** Not for all: one minute past midnight plus 32767 minutes counts backwards. *)
Theorem C86_add_refuted : exists t k u, clock t /\ -32768 <= k <= 32767 /\ clock u /\ AddMinute (packT t) k = packT u /\ seconds u <> (seconds t + 60 * k) mod 86400.
Proof. exists (0, 1, 0), 32767, (5, 52, 0). unfold clock. split; [lia|]. split; [lia|]. split; [lia|]. split; [vm_compute; reflexivity|vm_compute; discriminate]. Qed.
(** ** Adding seconds to a time and a date *)
Theorem C86_add_time_partial : forall t x sec u k z, clock t -> in_range x -> clock u -> in_range z ->
  -2147483648 <= sec <= 2147483647 - 59 -> seconds t + sec = 86400 * k + seconds u -> days_later x k z -> AddTime (packT t) (pack x) sec = Ok (packT u, pack z).
Proof.
  intros [[hh mm] ss] x sec [[h' m'] s'] k z C X C' Z B E DL. pose proof C as (H & M & S). pose proof C' as (H' & M' & S'). unfold seconds in E. unfold AddTime. rewrite toHMS by auto.
  assert (AD : AddDay (pack x) k = Ok (pack z)).
  { destruct DL as [[K A]|[K A]]; [destruct (C85_add_day _ _ _ X Z A) as [P _]|destruct (C85_add_day _ _ _ Z X A) as [_ P]]; rewrite Z2Nat.id in P by lia; rewrite <- P; f_equal; lia. }
  assert (K0 : k = 0 -> x = z). { intros ->. destruct DL as [[_ A]|[K _]]; [|lia]. inversion A; auto. }
  rewrite chk_ok by (unfold in_int; change (2 ^ (32 - 1)) with 2147483648; lia). rewrite bind_ok.
  assert (T : forall h m s, h = h' -> m = m' -> s = s' -> ToTime (i16 h) (i16 m) (i16 s) = packT (h', m', s')) by (intros; subst; rewrite !i16_id by lia; apply toTime; auto).
  destruct ((sec + ss <? 0) || (sec + ss >=? 60)) eqn:G1; cbn [fst snd].
  - assert (Q1 : (sec + ss) mod 60 = s') by dlia. assert (Q2 : (sec + ss) / 60 + mm = 1440 * k + 60 * (h' - hh) + m') by dlia. rewrite Q1, Q2.
    destruct ((1440 * k + 60 * (h' - hh) + m' <? 0) || (1440 * k + 60 * (h' - hh) + m' >=? 60)) eqn:G2.
    + assert (Q3 : (1440 * k + 60 * (h' - hh) + m') mod 60 = m') by dlia. assert (Q4 : (1440 * k + 60 * (h' - hh) + m') / 60 + hh = 24 * k + h') by dlia. rewrite Q3, Q4.
      assert (Q5 : (24 * k + h') / 24 = k /\ (24 * k + h') mod 24 = h') by dlia. destruct Q5 as [Q5 Q6]. destruct ((24 * k + h' <? 0) || (24 * k + h' >=? 24)) eqn:G3.
      * rewrite Q5, Q6. rewrite (i16_id k) by lia. rewrite AD, !bind_ok. f_equal. f_equal. apply T; auto.
      * apply orb_false_iff in G3. assert (k = 0) by lia. rewrite <- K0 by auto. rewrite bind_ok. f_equal. f_equal. apply T; auto; lia.
    + apply orb_false_iff in G2. assert (k = 0 /\ h' = hh) by lia. rewrite <- K0 by lia. rewrite bind_ok. f_equal. f_equal. apply T; auto; lia.
  - apply orb_false_iff in G1. assert (k = 0 /\ h' = hh /\ m' = mm /\ s' = sec + ss) by lia. rewrite <- K0 by lia. rewrite bind_ok. f_equal. f_equal. apply T; lia.
Qed.
(** Not for all: the sum of the seconds can exceed LONGINT. *)
Theorem C86_add_time_refuted : exists t x, clock t /\ in_range x /\ AddTime (packT t) (pack x) 2147483647 = UB.
Proof. exists (0, 0, 1), (2000, 1, 1). split; [unfold clock; lia|]. split; [apply in_range_inv; vm_compute; intuition discriminate|]. vm_compute. reflexivity. Qed.
(** ** Time stamps and intervals *)
Definition fits (d : Z) : Prop := -2147483648 < d < 2147483647.
Lemma chk_fits : forall x, -2147483648 <= x <= 2147483647 -> chk 32 x = Ok x.
Proof. intros x H. apply chk_ok. unfold in_int. change (2 ^ (32 - 1)) with 2147483648. lia. Qed.
Theorem C86_init : forall days msecs, -2147483648 <= days <= 2147483647 -> -2147483648 <= msecs <= 2147483647 -> fits (days + msecs / 86400000) ->
  exists a, InitTimeStamp days msecs = Ok a /\ InitInterval days msecs = Ok a /\ normal a /\ msec a = days * 86400000 + msecs.
Proof.
  intros days msecs D M F. unfold fits in F. exists (days + msecs / 86400000, msecs mod 86400000). unfold InitTimeStamp, InitInterval, msecPerDay. rewrite chk_fits by lia. rewrite bind_ok. split; auto. split; auto. unfold normal, msec. cbn [fst snd]. split; dlia.
Qed.
Theorem C86_now : forall sec usec, -2147483648 <= sec <= 2147483647 -> 0 <= usec < 1000000 ->
  exists a, GetTime sec usec = Ok a /\ normal a /\ msec a = 86400000 * DateToDays true default 1 1 1970 + 1000 * sec + usec / 1000.
Proof.
  intros sec usec S U. exists (40587 + sec / 86400, sec mod 86400 * 1000 + usec / 1000). unfold GetTime. rewrite !chk_fits by dlia. rewrite !bind_ok. split; auto. unfold normal, msec. cbn [fst snd]. change (DateToDays true default 1 1 1970) with 40587. split; dlia.
Qed.
Theorem C86_add_sub : forall a b, normal a -> normal b ->
  (fits (fst a + fst b) -> exists c, Add a b = Ok c /\ normal c /\ msec c = msec a + msec b) /\
  (fits (fst a - fst b) -> exists c, Sub a b = Ok c /\ Delta a b = Ok c /\ normal c /\ msec c = msec a - msec b).
Proof.
  intros [d m] [d' m'] A B. unfold normal, fits in *. cbn [fst snd] in *. split; intros F.
  - unfold Add, msecPerDay. cbn [fst snd]. rewrite !chk_fits, !bind_ok by lia. destruct (m + m' >=? 86400000) eqn:G.
    + rewrite chk_fits, bind_ok by lia. eexists. split; [reflexivity|]. unfold msec. cbn [fst snd]. lia.
    + eexists. split; [reflexivity|]. unfold msec. cbn [fst snd]. lia.
  - unfold Sub, Delta, msecPerDay. cbn [fst snd]. rewrite !chk_fits, !bind_ok by lia. destruct (m - m' <? 0) eqn:G.
    + rewrite chk_fits, bind_ok by lia. eexists. split; [reflexivity|]. split; [reflexivity|]. unfold msec. cbn [fst snd]. lia.
    + eexists. split; [reflexivity|]. split; [reflexivity|]. unfold msec. cbn [fst snd]. lia.
Qed.
Theorem C86_compare : forall a b, normal a -> normal b ->
  (Cmp a b = 1 /\ msec a > msec b) \/ (Cmp a b = 0 /\ msec a = msec b /\ a = b) \/ (Cmp a b = -1 /\ msec a < msec b).
Proof.
  intros [d m] [d' m'] A B. unfold normal, Cmp, msec in *. cbn [fst snd] in *. destruct (d >? d') eqn:G1; cbn [orb]; [left; split; auto; lia|]. destruct (d =? d') eqn:G2; cbn [andb].
  - destruct (m >? m') eqn:G3; [left; split; auto; lia|]. destruct (m =? m') eqn:G4; [right; left; split; auto; split; [lia|f_equal; lia]|]. right; right. split; auto. lia.
  - right; right. split; auto. lia.
Qed.
(** A difference added again gives the time back. *)
Theorem C86_difference : forall a b, normal a -> normal b -> fits (fst a) -> fits (fst a - fst b) -> fits (fst a - fst b - 1) -> fits (fst a - 1) ->
  exists c, Delta a b = Ok c /\ Add b c = Ok a.
Proof.
  intros a b A B F F2 F3 F4. destruct (proj2 (C86_add_sub a b A B) F2) as (c & _ & D & N & E). exists c. split; auto.
  assert (FC : fits (fst b + fst c)) by (unfold msec, normal, fits in *; lia). destruct (proj1 (C86_add_sub b c B N) FC) as (a' & P & N' & E'). rewrite P. f_equal.
  destruct a as [d m], a' as [d' m']. unfold msec, normal in *. cbn [fst snd] in *. f_equal; lia.
Qed.
(** ** Histories: after any sequence of additions and subtractions the time stamp is normalised and is the sum *)
Definition step (a : span) (o : op) : res span := match o with Plus i => Add a i | Minus i => Sub a i end.
Fixpoint run (a : span) (os : list op) : res span := match os with [] => Ok a | o :: os => let* a := step a o in run a os end.
Lemma Add_inv : forall a b c, normal a -> normal b -> Add a b = Ok c -> normal c /\ msec c = msec a + msec b.
Proof.
  intros [d m] [d' m'] c A B H. unfold Add, msecPerDay, normal, msec in *. cbn [fst snd] in *. rewrite chk_fits, bind_ok in H by lia.
  destruct (chk 32 (d + d')) as [e|e| |] eqn:K; try discriminate. apply chk_inv in K as [-> _]. rewrite bind_ok in H. destruct (m + m' >=? 86400000) eqn:G.
  - destruct (chk 32 (d + d' + 1)) as [e|e| |] eqn:K; try discriminate. apply chk_inv in K as [-> _]. rewrite bind_ok in H. injection H as <-. cbn [fst snd]. lia.
  - injection H as <-. cbn [fst snd]. lia.
Qed.
Lemma Sub_inv : forall a b c, normal a -> normal b -> Sub a b = Ok c -> normal c /\ msec c = msec a - msec b.
Proof.
  intros [d m] [d' m'] c A B H. unfold Sub, msecPerDay, normal, msec in *. cbn [fst snd] in *. rewrite chk_fits, bind_ok in H by lia.
  destruct (chk 32 (d - d')) as [e|e| |] eqn:K; try discriminate. apply chk_inv in K as [-> _]. rewrite bind_ok in H. destruct (m - m' <? 0) eqn:G.
  - destruct (chk 32 (d - d' - 1)) as [e|e| |] eqn:K; try discriminate. apply chk_inv in K as [-> _]. rewrite bind_ok in H. injection H as <-. cbn [fst snd]. lia.
  - injection H as <-. cbn [fst snd]. lia.
Qed.
Theorem C86_history : forall os a a', normal a -> Forall (fun o => normal (operand o)) os -> run a os = Ok a' -> normal a' /\ msec a' = fold_left (fun v o => v + effect o) os (msec a).
Proof.
  induction os as [|o os IH]; intros a a' A F R; [injection R as <-; auto|]. inversion F as [|? ? O F']; subst. cbn [run] in R. destruct (step a o) as [b| | |] eqn:S; try discriminate. rewrite bind_ok in R.
  assert (Q : normal b /\ msec b = msec a + effect o).
  { destruct o as [i|i]; cbn [step operand effect] in *; [apply Add_inv in S|apply Sub_inv in S]; auto; destruct S; split; auto; lia. }
  destruct Q as [N E]. destruct (IH b a' N F' R) as [N' E']. split; auto. cbn [fold_left]. rewrite <- E. auto.
Qed.
Example C86_met : clock (23, 59, 58) /\ AddSecond (packT (23, 59, 58)) 3 = packT (0, 0, 1) /\ AddTime (packT (23, 59, 58)) (pack (2024, 2, 28)) 3 = Ok (packT (0, 0, 1), pack (2024, 2, 29)) /\
  days_later (2024, 2, 28) 1 (2024, 2, 29) /\ InitTimeStamp 10 90000000 = Ok (11, 3600000) /\ run (11, 3600000) [Minus (0, 7200000); Plus (1, 86399999)] = Ok (12, 82799999) /\
  GetTime 1700000000 123456 = Ok (60262, 80000123).
Proof.
  split; [unfold clock; lia|]. split; [vm_compute; reflexivity|]. split; [vm_compute; reflexivity|]. split; [|repeat split; vm_compute; reflexivity].
  left. split; [lia|]. change (Z.to_nat 1) with 1%nat. apply af_S with (y := (2024, 2, 28)); [constructor|]. apply (nx_day gregorian 2024 2 28 29); [apply LastDay_iff; [lia|reflexivity]|lia].
Qed.
Print Assumptions C86_parts. Print Assumptions C86_made. Print Assumptions C86_add_partial. Print Assumptions C86_add_refuted. Print Assumptions C86_add_time_partial. Print Assumptions C86_add_time_refuted.
Print Assumptions C86_init. Print Assumptions C86_now. Print Assumptions C86_add_sub. Print Assumptions C86_compare. Print Assumptions C86_difference. Print Assumptions C86_history.
