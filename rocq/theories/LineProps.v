(** Error messages show the right line (C54). *)
From Verif Require Import Base ArrZ LineModel.

(** ** Lines *)
(** The character at a position; 00X past the end. *)
Definition at_ (text : list Z) (p : Z) : Z := if (0 <=? p) && (p <? zlen text) then ix text p else 0.
(** A line starts at 0 and behind CR LF, CR alone, LF alone and 00X. *)
Definition line_start (text : list Z) (p : Z) : bool :=
  (p =? 0) || ((0 <? p) && (p <=? zlen text) && ((at_ text (p - 1) =? 0) || (at_ text (p - 1) =? 10) || ((at_ text (p - 1) =? 13) && negb (at_ text p =? 10)))).
(** Lines are numbered from 1: the number of lines that start at or before a position. *)
Definition line_number (text : list Z) (p : Z) : Z := Z.of_nat (length (filter (fun q => line_start text (Z.of_nat q)) (seq 0 (S (Z.to_nat p))))).

Lemma line_number_0 : forall text, line_number text 0 = 1.
Proof. reflexivity. Qed.
Lemma line_number_succ : forall text p, 0 <= p -> line_number text (p + 1) = line_number text p + if line_start text (p + 1) then 1 else 0.
Proof.
  intros text p H. unfold line_number. replace (Z.to_nat (p + 1)) with (S (Z.to_nat p)) by lia. rewrite (seq_S (S (Z.to_nat p))), filter_app, app_length. cbn [filter plus].
  replace (Z.of_nat (S (Z.to_nat p))) with (p + 1) by lia. destruct (line_start text (p + 1)); cbn [length]; lia.
Qed.
Lemma line_number_same : forall text a b, 0 <= a <= b -> (forall q, a < q <= b -> line_start text q = false) -> line_number text b = line_number text a.
Proof.
  intros text a b H N. replace b with (a + Z.of_nat (Z.to_nat (b - a))) by lia. assert (K : a + Z.of_nat (Z.to_nat (b - a)) <= b) by lia. revert K.
  induction (Z.to_nat (b - a)) as [| n IH]; intros K; [rewrite Z.add_0_r; reflexivity |].
  replace (a + Z.of_nat (S n)) with (a + Z.of_nat n + 1) by lia. rewrite line_number_succ by lia. rewrite IH by lia. rewrite N by lia. lia.
Qed.
Lemma line_number_next : forall text a b, 0 <= a < b -> (forall q, a < q < b -> line_start text q = false) -> line_start text b = true -> line_number text b = line_number text a + 1.
Proof.
  intros text a b H N B. replace b with (b - 1 + 1) by lia. rewrite line_number_succ by lia. replace (b - 1 + 1) with b by lia. rewrite B. rewrite (line_number_same text a (b - 1)); [lia | lia |]. intros q Hq. apply N. lia.
Qed.

(** ** The reader *)
Definition rider_at (text : list Z) (l : Z) : rider := (Z.min (l + 1) (zlen text), zlen text <=? l).
Lemma read_set : forall text l, 0 <= l -> Read text (Set_ text l) = (at_ text l, rider_at text l).
Proof.
  intros text l H. unfold Read, Set_, rider_at, at_. cbn [fst snd]. replace (l <? 0) with false by lia. destruct (l >? zlen text) eqn:E.
  - replace (zlen text <? zlen text) with false by lia. replace (l <? zlen text) with false by lia. rewrite andb_false_r. f_equal. f_equal; lia.
  - destruct (l <? zlen text) eqn:E2.
    + replace (0 <=? l) with true by lia. f_equal. f_equal; lia.
    + rewrite andb_false_r. f_equal. f_equal; lia.
Qed.
Lemma read_next : forall text l, 0 <= l -> Read text (rider_at text l) = (at_ text (l + 1), rider_at text (l + 1)).
Proof.
  intros text l H. unfold Read, rider_at, at_. cbn [fst snd]. destruct (Z.min (l + 1) (zlen text) <? zlen text) eqn:E.
  - replace ((0 <=? l + 1) && (l + 1 <? zlen text)) with true by lia. rewrite Z.min_l by lia. f_equal. f_equal; lia.
  - replace ((0 <=? l + 1) && (l + 1 <? zlen text)) with false by lia. f_equal. f_equal; lia.
Qed.
Lemma skip_spec : forall n text l, 0 <= l <= zlen text -> (Z.to_nat (zlen text - l) < n)%nat ->
  exists e, skip n text (at_ text l) (rider_at text l) l = Ok (at_ text e, rider_at text e, e) /\ l <= e <= zlen text /\ eol (at_ text e) = true /\ (forall q, l <= q < e -> eol (at_ text q) = false).
Proof.
  induction n as [| n IH]; intros text l H F; [lia |]. cbn [skip]. destruct (eol (at_ text l)) eqn:E.
  - exists l. split; [reflexivity |]. split; [lia |]. split; [exact E |]. intros q Hq. lia.
  - rewrite read_next by lia. assert (l < zlen text). { destruct (Z.eq_dec l (zlen text)) as [-> |]; [| lia]. unfold at_ in E. rewrite Z.ltb_irrefl, andb_false_r in E. discriminate. }
    destruct (IH text (l + 1) ltac:(lia) ltac:(lia)) as (e & K & A & B & C). exists e. split; [exact K |]. split; [lia |]. split; [exact B |]. intros q Hq. destruct (Z.eq_dec q l) as [-> |]; [exact E | apply C; lia].
Qed.

(** ** The saved positions *)
Definition describes (text : list Z) (c : cache) : Prop :=
  0 <= Start c < Limit c /\ Limit c <= zlen text + 1 /\ line_start text (Start c) = true /\ (forall q, Start c < q < Limit c -> line_start text q = false) /\
  (Limit c <= zlen text -> line_start text (Limit c) = true) /\ Number c = line_number text (Start c).
Definition good (text : list Z) (c : cache) : Prop := c = fresh \/ describes text c.
Lemma next_number : forall text c, good text c -> Limit c <= zlen text -> line_number text (Limit c) = Number c + 1 /\ line_start text (Limit c) = true.
Proof.
  intros text c [-> | (A & B & C & D & E & F)] H; [cbn [Limit Number fresh]; rewrite line_number_0; split; reflexivity |].
  split; [| auto]. rewrite F. apply line_number_next; auto.
Qed.
Lemma good_limit : forall text c, good text c -> 0 <= Limit c.
Proof. intros text c [-> | (A & _)]; cbn; lia. Qed.
Lemma next_start : forall text l e, 0 <= l <= e -> e <= zlen text -> eol (at_ text e) = true -> (forall q, l <= q < e -> eol (at_ text q) = false) ->
  let n := if (at_ text e =? 13) && (at_ text (e + 1) =? 10) then e + 2 else e + 1 in
  n <= zlen text + 1 /\ (forall q, l < q < n -> line_start text q = false) /\ (n <= zlen text -> line_start text n = true).
Proof.
  intros text l e H L E N. cbv zeta. destruct ((at_ text e =? 13) && (at_ text (e + 1) =? 10)) eqn:C.
  - assert (K : e + 1 < zlen text). { destruct (Z.lt_ge_cases (e + 1) (zlen text)); [lia |]. apply andb_true_iff in C as [_ C]. unfold at_ in C. replace (e + 1 <? zlen text) with false in C by lia. rewrite andb_false_r in C. discriminate. }
    split; [lia |]. split.
    + intros q Hq. unfold line_start. replace (q =? 0) with false by lia. destruct (Z.eq_dec q (e + 1)) as [-> |].
      * replace (e + 1 - 1) with e by lia. apply andb_true_iff in C as [C1 C2]. rewrite C1, C2. apply Z.eqb_eq in C1. rewrite C1. cbn. rewrite andb_false_r. reflexivity.
      * specialize (N (q - 1) ltac:(lia)). unfold eol in N. destruct (at_ text (q - 1) =? 0), (at_ text (q - 1) =? 10), (at_ text (q - 1) =? 13); try discriminate N. cbn. rewrite andb_false_r. reflexivity.
    + intros _. unfold line_start. replace (e + 2 - 1) with (e + 1) by lia. apply andb_true_iff in C as [C1 C2]. rewrite C2. replace (0 <? e + 2) with true by lia. replace (e + 2 <=? zlen text) with true by lia.
      destruct (at_ text (e + 1) =? 0); cbn; apply orb_true_r.
  - split; [lia |]. split.
    + intros q Hq. unfold line_start. replace (q =? 0) with false by lia.
      specialize (N (q - 1) ltac:(lia)). unfold eol in N. destruct (at_ text (q - 1) =? 0), (at_ text (q - 1) =? 10), (at_ text (q - 1) =? 13); try discriminate N. cbn. rewrite andb_false_r. reflexivity.
    + intros K. unfold line_start. replace (e + 1 - 1) with e by lia. replace (0 <? e + 1) with true by lia. replace (e + 1 <=? zlen text) with true by lia.
      unfold eol in E. destruct (at_ text e =? 0), (at_ text e =? 10), (at_ text e =? 13), (at_ text (e + 1) =? 10); cbn in *; try discriminate; apply orb_true_r.
Qed.
Lemma find_loop_spec : forall n text pos c, good text c -> (Z.to_nat (zlen text - Limit c) < n)%nat -> 0 <= pos <= zlen text ->
  exists c', find_loop n text pos (at_ text (Limit c)) (rider_at text (Limit c)) c = Ok c' /\ good text c' /\ pos <= Limit c' /\ (c' = c \/ Start c' < pos).
Proof.
  induction n as [| n IH]; intros text pos c G F HP; [lia |]. cbn [find_loop]. pose proof (good_limit text c G) as L0.
  destruct ((Limit c <? pos) && negb (snd (rider_at text (Limit c)))) eqn:W.
  - apply andb_true_iff in W as [W _]. assert (W' : Limit c < pos) by lia. destruct (skip_spec (S (length text)) text (Limit c) ltac:(lia) ltac:(unfold zlen; lia)) as (e & -> & E1 & E2 & E3).
    rewrite bind_ok. rewrite read_next by lia. destruct (next_number text c G ltac:(lia)) as [NN NS].
    pose proof (next_start text (Limit c) e ltac:(lia) ltac:(lia) E2 E3) as K. cbv zeta in K.
    assert (T : exists l, (if (at_ text e =? 13) && (at_ text (e + 1) =? 10) then (let '(ch0, r1) := Read text (rider_at text (e + 1)) in (e + 1 + 1, ch0, r1)) else (e + 1, at_ text (e + 1), rider_at text (e + 1))) = (l, at_ text l, rider_at text l) /\
      l = if (at_ text e =? 13) && (at_ text (e + 1) =? 10) then e + 2 else e + 1).
    { destruct ((at_ text e =? 13) && (at_ text (e + 1) =? 10)).
      - rewrite read_next by lia. exists (e + 2). replace (e + 1 + 1) with (e + 2) by lia. auto.
      - exists (e + 1). auto. }
    destruct T as (l & -> & El). rewrite <- El in K. destruct K as (K1 & K2 & K3). assert (Hl : e + 1 <= l) by (destruct ((at_ text e =? 13) && (at_ text (e + 1) =? 10)); lia).
    set (c1 := {| Start := Limit c; Limit := l; Number := Number c + 1 |}). assert (G1 : good text c1).
    { right. unfold describes. cbn [Start Limit Number c1]. split; [lia |]. split; [exact K1 |]. split; [exact NS |]. split; [exact K2 |]. split; [exact K3 |]. lia. }
    destruct (IH text pos c1 G1 ltac:(cbn [Limit c1]; lia) HP) as (c' & R1 & R2 & R3 & R4). exists c'. split; [exact R1 |]. split; [exact R2 |]. split; [exact R3 |]. right.
    destruct R4 as [-> | R4]; [cbn [Start c1]; exact W' | exact R4].
  - exists c. split; [reflexivity |]. split; [exact G |]. split; [| left; reflexivity]. apply andb_false_iff in W as [W | W]; [lia |]. unfold rider_at in W. cbn [snd] in W. apply negb_false_iff in W. lia.
Qed.
Lemma FindLine_spec : forall text pos c, good text c -> 0 <= pos <= zlen text -> exists c', FindLine text pos c = Ok c' /\ good text c' /\ Start c' <= pos <= Limit c' /\ (pos = Limit c' -> Start c' < pos \/ c' = fresh).
Proof.
  intros text pos c G HP. unfold FindLine. set (d := if pos <? Start c then fresh else c). assert (G' : good text d) by (unfold d; destruct (pos <? Start c); [left; reflexivity | exact G]).
  assert (S' : Start d <= pos) by (unfold d; destruct (pos <? Start c) eqn:E; [cbn; lia | lia]). clearbody d. clear G c. pose proof (good_limit text d G').
  assert (SL : Start d < Limit d \/ d = fresh) by (destruct G' as [-> | (A & _)]; [right; reflexivity | left; lia]).
  destruct (pos <? Limit d) eqn:E.
  - exists d. split; [reflexivity |]. split; [exact G' |]. lia.
  - rewrite read_set by lia. destruct (find_loop_spec (S (length text)) text pos d G' ltac:(unfold zlen; lia) HP) as (c' & A & B & C & D). exists c'. split; [exact A |]. split; [exact B |].
    destruct D as [-> | D]; [| lia]. split; [lia |]. intros _. destruct SL; [left; lia | right; assumption].
Qed.
Lemma reachable_good : forall text c, reachable text c -> good text c.
Proof. intros text c R. induction R as [| c pos c' R IH HP E]; [left; reflexivity |]. destruct (FindLine_spec text pos c IH HP) as (c'' & E' & G & _). congruence. Qed.

(** ** The theorems *)
(** Whatever has been reported before, the line of a position in the source is found with its number, unless the position is the start of a line. *)
Theorem C54_line : forall text c pos, reachable text c -> 0 <= pos <= zlen text -> line_start text pos = false ->
  exists c', FindLine text pos c = Ok c' /\ Number c' = line_number text pos /\ line_start text (Start c') = true /\ Start c' < pos < Limit c' /\
    (forall q, Start c' < q <= pos -> line_start text q = false) /\ (Limit c' <= zlen text -> line_start text (Limit c') = true) /\ (forall q, pos < q < Limit c' -> line_start text q = false).
Proof.
  intros text c pos R HP N. destruct (FindLine_spec text pos c (reachable_good text c R) HP) as (c' & E & G & S & _). exists c'. split; [exact E |].
  destruct G as [-> | (A & B & C & D & F & H)]. { cbn [Start Limit fresh] in S. assert (pos = 0) by lia. subst. discriminate N. }
  assert (pos <> Start c') by (intros ->; congruence). assert (pos <> Limit c') by (intros ->; rewrite F in N by lia; discriminate).
  split; [| repeat split; try assumption; try lia; intros q Hq; apply D; lia]. rewrite H. symmetry. apply line_number_same; [lia |]. intros q Hq. apply D. lia.
Qed.
(** At the start of a line, that line or the one before is reported. *)
Theorem C54_start : forall text c pos, reachable text c -> 0 <= pos <= zlen text -> line_start text pos = true -> exists c', FindLine text pos c = Ok c' /\ (Number c' = line_number text pos \/ Number c' = line_number text pos - 1).
Proof.
  intros text c pos R HP N. destruct (FindLine_spec text pos c (reachable_good text c R) HP) as (c' & E & G & S & _). exists c'. split; [exact E |].
  destruct (Z.eq_dec pos (Limit c')) as [-> | NL].
  - right. destruct (next_number text c' G ltac:(lia)). lia.
  - left. destruct G as [-> | (A & B & C & D & F & H)]; [cbn [Start Limit fresh] in S; cbn [Limit fresh] in NL; lia |]. rewrite H. destruct (Z.eq_dec pos (Start c')) as [-> |]; [reflexivity |]. rewrite D in N by lia. discriminate.
Qed.
(** The part of C54 that fails: the number reported for the start of a line depends on what was reported before; it can be the line before, and line 0. *)
Theorem C54_start_refuted : exists text pos c c1 c2, reachable text c /\ 0 < pos <= zlen text /\ FindLine text pos fresh = Ok c1 /\ FindLine text pos c = Ok c2 /\
  Number c1 = line_number text pos - 1 /\ Number c2 = line_number text pos /\ FindLine text 0 fresh = Ok fresh /\ Number fresh = 0.
Proof.
  exists [65; 10; 66; 67; 10], 2, {| Start := 2; Limit := 5; Number := 2 |}. do 2 eexists. split.
  - apply (reach_call _ fresh 3); [constructor | unfold zlen; cbn; lia | vm_compute; reflexivity].
  - split; [unfold zlen; cbn; lia |]. split; [vm_compute; reflexivity |]. split; [vm_compute; reflexivity |]. repeat split; vm_compute; reflexivity.
Qed.
(** What is shown: the characters of the line, and the column of the position in it. *)
Lemma line_loop_spec : forall n text l line, 0 <= l -> (Z.to_nat (1022 - zlen line) < n)%nat -> zlen line <= 1022 -> l <= zlen text ->
  exists k, line_loop n text (at_ text l) (rider_at text l) line = Ok (line ++ firstn k (skipn (Z.to_nat l) text)) /\ l + Z.of_nat k <= zlen text /\
    (forall q, l <= q < l + Z.of_nat k -> eol (at_ text q) = false) /\ (eol (at_ text (l + Z.of_nat k)) = true \/ zlen line + Z.of_nat k = 1022) /\ zlen line + Z.of_nat k <= 1022.
Proof.
  induction n as [| n IH]; intros text l line H F L T; [lia |]. cbn [line_loop]. destruct (negb (eol (at_ text l)) && (zlen line <? 1023 - 1)) eqn:E.
  - rewrite read_next by lia. apply andb_true_iff in E as [E1 E2]. apply negb_true_iff in E1.
    assert (l < zlen text). { destruct (Z.eq_dec l (zlen text)) as [-> |]; [| lia]. unfold at_ in E1. rewrite Z.ltb_irrefl, andb_false_r in E1. discriminate. }
    assert (ZL : zlen (line ++ [at_ text l]) = zlen line + 1) by (rewrite zlen_app; reflexivity).
    destruct (IH text (l + 1) (line ++ [at_ text l]) ltac:(lia) ltac:(rewrite ZL; lia) ltac:(rewrite ZL; lia) ltac:(lia)) as (k & -> & K1 & K2 & K3 & K4). exists (S k). rewrite ZL in *. split.
    + f_equal. rewrite <- app_assoc. f_equal.
      assert (SK : skipn (Z.to_nat l) text = at_ text l :: skipn (Z.to_nat (l + 1)) text).
      { unfold at_. replace ((0 <=? l) && (l <? zlen text)) with true by lia. unfold ix. replace (Z.to_nat (l + 1)) with (S (Z.to_nat l)) by lia. unfold zlen in *. assert (Hl : (Z.to_nat l < length text)%nat) by lia.
        clear - Hl. revert text Hl. induction (Z.to_nat l) as [| m IHm]; intros text Hl; destruct text as [| x text]; cbn [length] in Hl; try lia; [reflexivity |]. cbn [skipn nth]. apply IHm. lia. }
      rewrite SK. reflexivity.
    + split; [lia |]. split; [intros q Hq; destruct (Z.eq_dec q l) as [-> |]; [exact E1 | apply K2; lia] |]. split; [| lia]. replace (l + Z.of_nat (S k)) with (l + 1 + Z.of_nat k) by lia. destruct K3; [left; assumption | right; lia].
  - exists 0%nat. cbn [firstn]. rewrite app_nil_r. split; [reflexivity |]. split; [lia |]. split; [intros q Hq; lia |]. rewrite Z.add_0_r. split; [| lia]. destruct (eol (at_ text l)); [left; reflexivity | right; cbn in E; lia].
Qed.
Theorem C54_show : forall text c pos, reachable text c -> 0 <= pos <= zlen text -> line_start text pos = false -> exists c' k start,
  ShowLine text pos c = Ok (c', line_number text pos, firstn k (skipn (Z.to_nat start) text), if pos - start <? 32768 then pos - start else Z.max 0 (wrap_s 16 (pos - start))) /\ reachable text c' /\
  0 <= start < pos /\ line_start text start = true /\ (forall q, start < q <= pos -> line_start text q = false) /\
  Z.of_nat k <= 1022 /\ start + Z.of_nat k <= zlen text /\ (forall q, start <= q < start + Z.of_nat k -> eol (at_ text q) = false) /\ (eol (at_ text (start + Z.of_nat k)) = true \/ Z.of_nat k = 1022).
Proof.
  intros text c pos R HP N. destruct (C54_line text c pos R HP N) as (c' & E & A & B & C & D & F & _). exists c'.
  assert (G : 0 <= Start c'). { pose proof (reachable_good text c' (reach_call text c pos c' R HP E)) as [-> | (K & _)]; [cbn; lia | lia]. }
  destruct (line_loop_spec 1024 text (Start c') [] G ltac:(cbn; lia) ltac:(cbn; lia) ltac:(lia)) as (k & K & K1 & K2 & K3 & K4). exists k, (Start c').
  unfold ShowLine. rewrite E, bind_ok. rewrite read_set by exact G. rewrite K, bind_ok. replace (pos >=? Limit c') with false by lia. rewrite A. cbn [app]. rewrite zlen_nil in *. split.
  - f_equal. f_equal. destruct (pos - Start c' <? 32768) eqn:S16; [| reflexivity]. rewrite wrap_s_id by (unfold in_int; change (2 ^ (16 - 1)) with 32768; lia). lia.
  - split; [eapply reach_call; eassumption |]. repeat split; try assumption; try lia.
Qed.
(** Line 2 of "A", CR LF, "BC": position 4 is column 1. *)
Example C54_example : ShowLine [65; 13; 10; 66; 67] 4 fresh = Ok ({| Start := 3; Limit := 6; Number := 2 |}, 2, [66; 67], 1) /\ line_start [65; 13; 10; 66; 67] 4 = false.
Proof. split; vm_compute; reflexivity. Qed.

Print Assumptions C54_line.
Print Assumptions C54_start.
Print Assumptions C54_show.
