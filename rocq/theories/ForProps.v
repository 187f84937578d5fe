(** FOR loops run the documented iterations (C47). *)
From Verif Require Import Base OpsProps ForModel.

Section Props.
  Variable state : Type.
  Variable w : Z.
  Variable get : state -> Z.
  Variable set : Z -> state -> state.
  Variables from to : state -> res (Z * state).
  Variable body : state -> res state.
  Hypothesis width : w = 8 \/ w = 16 \/ w = 32 \/ w = 64.
  Hypothesis get_set : forall v s, get (set v s) = v.
  (** The body does not assign to the variable of the loop. *)
  Hypothesis body_keeps : forall s s', body s = Ok s' -> get s' = get s.

  (** The values the variable takes: from a on in steps of [step] as long as they are not beyond b. *)
  Definition within (step b v : Z) : Prop := if step >? 0 then v <= b else b <= v.
  Definition count (a b step : Z) : nat := Z.to_nat (if step >? 0 then (b - a) / step + 1 else (a - b) / - step + 1).
  Definition values (a b step : Z) : list Z := map (fun k => a + Z.of_nat k * step) (seq 0 (count a b step)).
  (** The body is executed once for each of the values, with the variable set to it. *)
  Fixpoint run (vs : list Z) (s : state) : res state :=
    match vs with
    | [] => Ok s
    | v :: vs => let* s := body (set v s) in run vs s
    end.
  Definition behind (a b step : Z) : Z := a + Z.of_nat (count a b step) * step.

  Lemma pow_w : 0 < w /\ 2 ^ (w - 1) > 0.
  Proof. destruct width as [-> | [-> | [-> | ->]]]; cbn; lia. Qed.
  Lemma count_within : forall a b step, step <> 0 -> (forall k, (k < count a b step)%nat <-> within step b (a + Z.of_nat k * step)).
  Proof.
    intros a b step N k. unfold count, within. destruct (step >? 0) eqn:E.
    - assert (0 < step) by lia. pose proof (Z.mul_div_le (b - a) step ltac:(lia)). pose proof (Z.mul_succ_div_gt (b - a) step ltac:(lia)). set (q := (b - a) / step) in *. clearbody q. split; intros K; nia.
    - assert (0 < - step) by lia. pose proof (Z.mul_div_le (a - b) (- step) ltac:(lia)). pose proof (Z.mul_succ_div_gt (a - b) (- step) ltac:(lia)). set (q := (a - b) / - step) in *. clearbody q. split; intros K; nia.
  Qed.
  Lemma within_mono : forall step a b k k', within step b (a + Z.of_nat k * step) -> (k' <= k)%nat -> step <> 0 -> within step b (a + Z.of_nat k' * step).
  Proof. intros step a b k k' H L N. apply count_within; [exact N |]. apply count_within in H; [| exact N]. lia. Qed.
  Definition test (step temp v : Z) : bool := if step >? 0 then v <=? temp else v >=? temp.
  Lemma test_within : forall step temp v, test step temp v = true <-> within step temp v.
  Proof. intros. unfold test, within. destruct (step >? 0); lia. Qed.
  (** [set] to the value it has anyway. *)
  Hypothesis set_set : forall v v' s, set v (set v' s) = set v s.
  Hypothesis set_get : forall s, set (get s) s = s.

  Lemma increment_spec : forall step s, in_int w (get s + step) -> increment state w get set step s = Ok (set (get s + step) s).
  Proof.
    intros step s H. unfold increment. destruct pow_w. destruct (w <? 32).
    - rewrite wrap_s_id by (auto; lia). reflexivity.
    - unfold chk. rewrite (proj2 (in_intb_iff _ _) H). reflexivity.
  Qed.
  Lemma loop_spec : forall step b, step <> 0 -> forall n a s f, count a b step = n -> (n < f)%nat -> get s = a -> in_int w a -> in_int w (behind a b step) ->
    loop state w get set body f b step s = let* s := run (values a b step) s in Ok (set (behind a b step) s).
  Proof.
    intros step b N. induction n as [| n IH]; intros a s f HC HF HG HA HB; (destruct f as [| f]; [lia |]); cbn [loop]; rewrite HG; fold (test step b a).
    - assert (T : test step b a = false).
      { destruct (test step b a) eqn:T; [| reflexivity]. apply test_within in T. rewrite <- (Z.add_0_r a) in T. change 0 with (Z.of_nat 0 * step) in T. apply count_within in T; [lia | exact N]. }
      rewrite T. unfold values, behind. rewrite HC. cbn [seq map run bind]. rewrite Z.mul_0_l, Z.add_0_r, <- HG, set_get. reflexivity.
    - assert (T : test step b a = true).
      { apply test_within. rewrite <- (Z.add_0_r a). change 0 with (Z.of_nat 0 * step). apply count_within; [exact N | lia]. }
      assert (C' : count (a + step) b step = n).
      { assert (G : forall k, (k < count (a + step) b step)%nat <-> (S k < count a b step)%nat). { intros k. rewrite !count_within by exact N. replace (a + step + Z.of_nat k * step) with (a + Z.of_nat (S k) * step) by lia. reflexivity. }
        pose proof (G n) as G1. pose proof (G (n - 1)%nat) as G2. pose proof (G (count (a + step) b step)) as G3. rewrite HC in *. lia. }
      assert (B' : behind (a + step) b step = behind a b step) by (unfold behind; rewrite HC, C'; lia).
      assert (V : values a b step = a :: values (a + step) b step).
      { unfold values. rewrite HC, C'. cbn [seq map]. f_equal; [lia |]. rewrite <- seq_shift, map_map. apply map_ext. intros k. lia. }
      rewrite T, V. cbn [run]. rewrite <- HG at 1. rewrite set_get. destruct (body s) as [s1 | | |] eqn:EB; try reflexivity. rewrite !bind_ok. pose proof (body_keeps s s1 EB) as G1. rewrite HG in G1.
      assert (I1 : in_int w (a + step)).
      { unfold in_int in *. destruct (n =? 0)%nat eqn:En.
        - assert (n = 0%nat) by lia. subst n. unfold behind in HB. rewrite HC in HB. change (Z.of_nat 1) with 1 in HB. lia.
        - unfold behind in HB. rewrite HC in HB. assert (0 < Z.of_nat n) by lia. replace (Z.of_nat (S n)) with (Z.of_nat n + 1) in HB by lia. destruct (Z.lt_trichotomy step 0) as [K | [K | K]]; [| lia |]; nia. }
      rewrite increment_spec by (rewrite G1; exact I1). rewrite bind_ok, G1. rewrite (IH (a + step) (set (a + step) s1) f C' ltac:(lia) (get_set _ _) I1 ltac:(rewrite B'; exact HB)). rewrite B'.
      (* the first body sets the variable again *)
      assert (RS : forall vs v s, vs <> [] -> run vs (set v s) = run vs s). { intros [| x vs] v s0 NE; [congruence |]. cbn [run]. rewrite set_set. reflexivity. }
      destruct (values (a + step) b step) as [| x vs] eqn:EV; [cbn [run bind]; rewrite set_set; reflexivity |]. rewrite RS by discriminate. reflexivity.
  Qed.
  (** FOR v := a TO b BY step evaluates b and then a, once each, and executes its body for the values a, a + step, ... that are not beyond b, one after the other; the variable
      ends up with the first value beyond b.  It must be a value of the variable's type. *)
  Theorem C47_for : forall step s b s1 a s2, step <> 0 -> to s = Ok (b, s1) -> from s1 = Ok (a, s2) -> in_int w a -> in_int w (behind a b step) -> exists n, forall fuel, (n <= fuel)%nat ->
    for_stat state w get set from to body fuel step s = let* s' := run (values a b step) (set a s2) in Ok (set (behind a b step) s').
  Proof.
    intros step s b s1 a s2 N HT HF HA HB. exists (S (count a b step)). intros fuel HN. unfold for_stat. rewrite HT, bind_ok, HF, bind_ok. apply loop_spec with (n := count a b step); auto.
  Qed.
  (** The values are the ones the language report gives. *)
  Theorem C47_values : forall a b step v, step <> 0 -> (In v (values a b step) <-> exists k, 0 <= k /\ v = a + k * step /\ within step b v).
  Proof.
    intros a b step v N. unfold values. rewrite in_map_iff. split.
    - intros (k & <- & H). apply in_seq in H. exists (Z.of_nat k). split; [lia |]. split; [reflexivity |]. apply count_within; [exact N | lia].
    - intros (k & H0 & -> & H). exists (Z.to_nat k). rewrite Z2Nat.id by lia. split; [reflexivity |]. apply in_seq. split; [lia |]. cbn [plus]. apply count_within; [exact N |]. rewrite Z2Nat.id by lia. exact H.
  Qed.
  (** In order, and the value behind them is beyond b. *)
  Theorem C47_order : forall a b step, step <> 0 -> (forall i, (i < length (values a b step))%nat -> nth i (values a b step) 0 = a + Z.of_nat i * step) /\ ~ within step b (behind a b step).
  Proof.
    intros a b step N. split.
    - intros i Hi. unfold values in *. rewrite map_length, seq_length in Hi. rewrite (nth_indep _ 0 (a + Z.of_nat 0 * step)) by (rewrite map_length, seq_length; exact Hi). rewrite (map_nth (fun k => a + Z.of_nat k * step)), seq_nth by exact Hi. reflexivity.
    - unfold behind. intros H. apply count_within in H; [lia | exact N].
  Qed.
End Props.

(** The part of C47 that fails: with the last value of the type as the end, the variable steps over it.  With 8 bits it wraps around and the loop never ends, with 32 bits it
    overflows. *)
Definition Get (s : Z) := s.
Definition Put (v s : Z) := v.
Theorem C47_end_refuted : (forall fuel, for_stat Z 8 Get Put (fun s => Ok (0, s)) (fun s => Ok (127, s)) (fun s => Ok s) fuel 1 0 = Fuel) /\
  exists fuel, for_stat Z 32 Get Put (fun s => Ok (2147483646, s)) (fun s => Ok (2147483647, s)) (fun s => Ok s) fuel 1 0 = UB.
Proof.
  split; [| exists 5%nat; vm_compute; reflexivity]. intros fuel. unfold for_stat. rewrite !bind_ok. unfold Put at 2. assert (G : forall f v, in_int 8 v -> loop Z 8 Get Put (fun s => Ok s) f 127 1 v = Fuel); [| apply G; unfold in_int; cbn; lia].
  induction f as [| f IH]; intros v H; [reflexivity |]. cbn [loop]. change (1 >? 0) with true. cbn iota. unfold in_int in H. change (2 ^ (8 - 1)) with 128 in H. unfold Get at 1. replace (v <=? 127) with true by lia. rewrite bind_ok. unfold increment. change (8 <? 32) with true. cbn iota. rewrite bind_ok.
  apply IH. apply wrap_s_range. lia.
Qed.
(** FOR i := 1 TO 8 BY 3 *)
Example C47_example : values 1 8 3 = [1; 4; 7] /\ behind 1 8 3 = 10 /\ in_int 8 (behind 1 8 3) /\
  for_stat (Z * list Z) 8 fst (fun v s => (v, snd s)) (fun s => Ok (1, s)) (fun s => Ok (8, s)) (fun s => Ok (fst s, snd s ++ [fst s])) 9 3 (0, []) = Ok (10, [1; 4; 7]).
Proof. repeat split; try (vm_compute; reflexivity); vm_compute; discriminate. Qed.

Print Assumptions C47_for.
Print Assumptions C47_values.
Print Assumptions C47_order.
