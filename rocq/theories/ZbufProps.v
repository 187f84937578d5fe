(** C95: the buffers of the zlib modules deliver bytes in order. *)
From Verif Require Import Base ZbufModel ZbufSpec.

Lemma load_at : forall a x r len, len = Z.of_nat (length x) -> load (a ++ x ++ r) (Z.of_nat (length a)) len = Ok x.
Proof.
  intros a x r len ->. unfold load. replace (_ && _) with true by (rewrite !app_length; lia). f_equal.
  rewrite !Nat2Z.id, skipn_app, skipn_all, Nat.sub_diag. cbn [skipn app]. rewrite firstn_app, firstn_all, Nat.sub_diag, firstn_O, app_nil_r. reflexivity.
Qed.
Lemma store_at : forall a x r y, length x = length y -> store (a ++ x ++ r) (Z.of_nat (length a)) y = Ok (a ++ y ++ r).
Proof.
  intros a x r y L. unfold store. replace (_ && _) with true by (rewrite !app_length; lia). f_equal.
  rewrite !Nat2Z.id, firstn_app, firstn_all, Nat.sub_diag, firstn_O, app_nil_r. do 2 f_equal.
  rewrite <- L, app_assoc, <- app_length, skipn_app, skipn_all, Nat.sub_diag. reflexivity.
Qed.
Lemma store_replaced : forall dst o x, 0 <= o -> o + Z.of_nat (length x) <= Z.of_nat (length dst) -> store dst o x = Ok (replaced dst o x).
Proof. intros dst o x H1 H2. unfold store. replace (_ && _) with true by lia. reflexivity. Qed.
Lemma cut : forall (l : list Z) n, (n <= length l)%nat -> exists x y, l = x ++ y /\ length x = n.
Proof. intros l n H. exists (firstn n l), (skipn n l). split; [symmetry; apply firstn_skipn|]. apply firstn_length_le. exact H. Qed.

(** A buffer initialised with bytes to read, or with none written. *)
Theorem C95_init : forall b a offset sz av, 0 <= offset -> 0 < sz -> offset + sz <= Z.of_nat (length a) -> 0 <= av <= sz ->
  exists b', Init b a offset sz av = Ok b' /\ input b' [] (firstn (Z.to_nat av) (skipn (Z.to_nat offset) a)) /\ (av = sz -> output b' []).
Proof.
  intros b a offset sz av H1 H2 H3 H4. unfold Init, assert, zl. replace (_ && _ && _) with true by lia. cbn [bind]. replace (_ && _) with true by lia. cbn [bind].
  eexists. split; [reflexivity|]. assert (LP : Z.of_nat (length (part a offset sz)) = sz) by (unfold part; rewrite firstn_length, skipn_length; lia). split.
  - split; [split; cbn; [lia|exact LP]|]. split; [cbn; rewrite firstn_length, skipn_length; lia|]. split; [reflexivity|].
    cbn [mem app]. exists (skipn (Z.to_nat av) (part a offset sz)). unfold part at 1.
    replace (firstn (Z.to_nat av) (skipn (Z.to_nat offset) a)) with (firstn (Z.to_nat av) (part a offset sz)) by (unfold part; rewrite firstn_firstn; f_equal; lia).
    fold (part a offset sz). rewrite firstn_skipn. reflexivity.
  - intros ->. split; [split; cbn; [lia|exact LP]|]. split; [cbn; lia|]. split; [reflexivity|]. eexists. reflexivity.
Qed.
(** Reading delivers the bytes to come, in order, and stops the program if there are not enough. *)
Theorem C95_read : forall b done todo len dst offset, input b done todo ->
  (forall ch todo', todo = ch :: todo' -> exists b', Read b = Ok (b', [ch]) /\ input b' (done ++ [ch]) todo' /\ totalIn b' = totalIn b + 1) /\
  (todo = [] -> Read b = Trap 100) /\
  (0 <= offset -> 0 < len -> offset + len <= Z.of_nat (length dst) ->
   (forall x todo', todo = x ++ todo' -> len = Z.of_nat (length x) -> exists b', ReadBytes b dst offset len = Ok (b', replaced dst offset x) /\ input b' (done ++ x) todo' /\ totalIn b' = totalIn b + len) /\
   (len > Z.of_nat (length todo) -> ReadBytes b dst offset len = Trap 100)).
Proof.
  intros b done todo len dst offset ((S1 & S2) & A & N & rest & M). split; [|split].
  - intros ch todo' ->. unfold Read, assert. cbn [length] in A. replace (avail b >? 0) with true by lia. cbn [bind]. rewrite M, N.
    change ((ch :: todo') ++ rest) with ([ch] ++ todo' ++ rest). rewrite load_at by reflexivity. cbn [bind]. eexists. split; [reflexivity|]. split; [|reflexivity].
    split; [split; cbn; [exact S1|rewrite M in S2; exact S2]|]. cbn. split; [lia|]. split; [rewrite app_length; cbn [length]; lia|]. exists rest. rewrite <- app_assoc. reflexivity.
  - intros ->. unfold Read, assert. replace (avail b >? 0) with false by (cbn in A; lia). reflexivity.
  - intros H1 H2 H3. split.
    + intros x todo' -> ->. rewrite app_length in A. unfold ReadBytes, assert, zl. replace (_ && _ && _ && _) with true by lia. cbn [bind]. rewrite M, N, <- app_assoc. rewrite load_at by reflexivity. cbn [bind].
      rewrite store_replaced by lia. cbn [bind]. eexists. split; [reflexivity|]. split; [|reflexivity].
      split; [split; cbn; [exact S1|rewrite M, <- app_assoc in S2; exact S2]|]. cbn. split; [lia|]. split; [rewrite app_length; lia|]. exists rest. rewrite <- app_assoc. reflexivity.
    + intros L. unfold ReadBytes, assert, zl. replace (len <=? avail b) with false by lia. rewrite andb_false_r. reflexivity.
Qed.
(** Reread gives back consumed bytes, provided there are so many. *)
Theorem C95_reread_partial : forall b done back todo, input b (done ++ back) todo -> exists b', Reread b (Z.of_nat (length back)) = Ok b' /\ input b' done (back ++ todo).
Proof.
  intros b done back todo ((S1 & S2) & A & N & rest & M). rewrite M, !app_length in S2. rewrite app_length in N. unfold Reread, assert. replace (_ && _) with true by lia. cbn [bind].
  eexists. split; [reflexivity|]. split; [split; cbn; [exact S1|rewrite M, !app_length; lia]|]. cbn. split; [rewrite app_length; lia|]. split; [lia|]. exists rest. rewrite M, <- !app_assoc. reflexivity.
Qed.
(** New input for an empty buffer. *)
Theorem C95_fill_partial : forall b done src offset sz, input b done [] -> 0 <= offset -> 0 < sz <= size b -> offset + sz <= Z.of_nat (length src) ->
  exists b', Fill b src offset sz = Ok b' /\ input b' [] (firstn (Z.to_nat sz) (skipn (Z.to_nat offset) src)).
Proof.
  intros b done src offset sz ((S1 & S2) & A & N & rest & M) H1 H2 H3. cbn in A. unfold Fill, assert, zl. replace (_ && _ && _) with true by lia. cbn [bind]. rewrite A. cbn [Z.eqb negb].
  replace (0 + sz <=? size b) with true by lia. cbn [bind]. assert (LP : length (part src offset sz) = Z.to_nat sz) by (unfold part; rewrite firstn_length, skipn_length; lia).
  destruct (cut (mem b) (Z.to_nat sz) ltac:(lia)) as (x & y & E & L). rewrite E. rewrite (store_at [] x y) by lia. cbn [bind app].
  eexists. split; [reflexivity|]. split; [split; cbn; [lia|rewrite app_length, LP; rewrite E, app_length in S2; lia]|]. fold (part src offset sz). cbn. split; [lia|]. split; [reflexivity|]. eexists. reflexivity.
Qed.
Theorem C95_rewind : forall b done m av, input b done [] -> length m = length (mem b) -> 0 <= av <= size b -> exists b', Rewind b m av = Ok b' /\ input b' [] (firstn (Z.to_nat av) m).
Proof.
  intros b done m av ((S1 & S2) & A & N & rest & M) L H. cbn in A. unfold Rewind, assert. rewrite A. cbn [Z.eqb bind]. replace (_ && _) with true by lia. cbn [bind].
  eexists. split; [reflexivity|]. split; [split; cbn; lia|]. cbn. split; [rewrite firstn_length; lia|]. split; [reflexivity|]. exists (skipn (Z.to_nat av) m). rewrite firstn_skipn. reflexivity.
Qed.

(** Writing appends, and stops the program if there is no room. *)
Theorem C95_write : forall b w, output b w ->
  (forall ch, Z.of_nat (length w) < size b -> exists b', Write b ch = Ok b' /\ output b' (w ++ [ch]) /\ totalOut b' = totalOut b + 1) /\
  (forall ch, Z.of_nat (length w) = size b -> Write b ch = Trap 100) /\
  (forall src offset len, 0 <= offset -> 0 < len -> offset + len <= Z.of_nat (length src) ->
   (Z.of_nat (length w) + len <= size b -> exists b', WriteBytes b src offset len = Ok b' /\ output b' (w ++ firstn (Z.to_nat len) (skipn (Z.to_nat offset) src)) /\ totalOut b' = totalOut b + len) /\
   (Z.of_nat (length w) + len > size b -> WriteBytes b src offset len = Trap 100)).
Proof.
  intros b w ((S1 & S2) & A & N & rest & M).
  assert (G : forall x, Z.of_nat (length w) + Z.of_nat (length x) <= size b -> exists rest', store (mem b) (next b) x = Ok (w ++ x ++ rest') /\ Z.of_nat (length (w ++ x ++ rest')) = size b).
  { intros x L. rewrite M, app_length in S2. destruct (cut rest (length x) ltac:(lia)) as (y & r & -> & LY). exists r. rewrite M, N. rewrite store_at by exact LY. split; [reflexivity|].
    rewrite !app_length in *. lia. }
  split; [|split].
  - intros ch L. unfold Write, assert. replace (avail b >? 0) with true by lia. cbn [bind]. destruct (G [ch] ltac:(cbn [length]; lia)) as (r & -> & LR). cbn [bind]. eexists. split; [reflexivity|]. split; [|reflexivity].
    split; [split; cbn; [exact S1|exact LR]|]. cbn [avail size next mem]. rewrite app_length. cbn [length]. split; [lia|]. split; [lia|]. exists r. rewrite <- app_assoc. reflexivity.
  - intros ch L. unfold Write, assert. replace (avail b >? 0) with false by lia. reflexivity.
  - intros src offset len H1 H2 H3. split.
    + intros L. unfold WriteBytes, assert, zl. replace (_ && _ && _ && _) with true by lia. cbn [bind]. fold (part src offset len).
      assert (LP : length (part src offset len) = Z.to_nat len) by (unfold part; rewrite firstn_length, skipn_length; lia).
      destruct (G (part src offset len) ltac:(lia)) as (r & -> & LR). cbn [bind]. eexists. split; [reflexivity|]. split; [|reflexivity].
      split; [split; cbn; [exact S1|exact LR]|]. cbn [avail size next mem]. rewrite app_length, LP. split; [lia|]. split; [lia|]. exists r. rewrite <- app_assoc. reflexivity.
    + intros L. unfold WriteBytes, assert, zl. replace (len <=? avail b) with false by lia. rewrite andb_false_r. reflexivity.
Qed.
(** Draining takes the oldest bytes; proved while the rest is not longer than what is taken. *)
Theorem C95_drain_partial : forall b x w dst offset, output b (x ++ w) -> x <> [] -> (length w <= length x)%nat -> 0 <= offset -> offset + Z.of_nat (length x) <= Z.of_nat (length dst) ->
  exists b', Drain b dst offset (Z.of_nat (length x)) = Ok (b', replaced dst offset x) /\ output b' w.
Proof.
  intros b x w dst offset ((S1 & S2) & A & N & rest & M) NE L H1 H2. rewrite app_length in A, N. assert (0 < length x)%nat by (destruct x; [congruence|cbn; lia]).
  unfold Drain, assert, zl. replace (_ && _ && _) with true by lia. cbn [bind]. rewrite M, !app_length in S2. replace (avail b + _ <=? _) with true by lia. cbn [bind].
  rewrite M, <- app_assoc. rewrite (load_at [] x (w ++ rest)) by reflexivity. cbn [bind]. rewrite store_replaced by assumption. cbn [bind].
  replace (size b - avail b - Z.of_nat (length x)) with (Z.of_nat (length w)) by lia. unfold move. replace (_ && _) with false by lia.
  rewrite load_at by reflexivity. cbn [bind]. destruct (cut x (length w) L) as (x1 & x2 & E & L1).
  replace (x ++ w ++ rest) with ([] ++ x1 ++ (x2 ++ w ++ rest)) by (rewrite E, <- app_assoc; reflexivity). change 0 with (Z.of_nat (length (@nil Z))). rewrite store_at by exact L1. cbn [bind app].
  eexists. split; [reflexivity|]. split; [split; cbn; [exact S1|]|].
  - rewrite !app_length. rewrite E, app_length in S2. lia.
  - cbn. split; [lia|]. split; [lia|]. eexists. reflexivity.
Qed.
Theorem C95_rewrite : forall b w, output b w -> output (Rewrite b) [].
Proof. intros b w ((S1 & S2) & _). split; [split; assumption|]. cbn. split; [lia|]. split; [reflexivity|]. eexists. reflexivity. Qed.

(** Any sequence of writing and draining: the bytes taken out followed by those still in the buffer are the bytes written. *)
Theorem C95_stream : forall l b w b' out, output b w -> drive b l = Ok (b', out) -> exists w', output b' w' /\ out ++ w' = w ++ puts l.
Proof.
  induction l as [|[x|n] l IH]; intros b w b' out O D; cbn [drive] in D.
  - injection D as <- <-. exists w. cbn. rewrite app_nil_r. auto.
  - destruct (WriteBytes b x 0 (Z.of_nat (length x))) as [b1| | |] eqn:W; try discriminate. cbn [bind] in D.
    destruct (C95_write b w O) as (_ & _ & G). assert (P : 0 < Z.of_nat (length x)).
    { unfold WriteBytes, assert in W. destruct (0 <? Z.of_nat (length x)) eqn:E; [lia|]. rewrite andb_false_r in W. discriminate. }
    destruct (G x 0 (Z.of_nat (length x)) ltac:(lia) P ltac:(lia)) as [G1 G2].
    destruct (Z_le_gt_dec (Z.of_nat (length w) + Z.of_nat (length x)) (size b)) as [L|L]; [|rewrite (G2 L) in W; discriminate].
    destruct (G1 L) as (b2 & W2 & O2 & _). rewrite W2 in W. injection W as <-. rewrite Nat2Z.id in O2. cbn [Z.to_nat skipn] in O2. rewrite firstn_all in O2.
    destruct (IH _ _ _ _ O2 D) as (w' & O' & E). exists w'. split; [exact O'|]. rewrite E. cbn [puts flat_map]. rewrite <- app_assoc. reflexivity.
  - destruct (Drain b (repeat 0 n) 0 (Z.of_nat n)) as [[b1 d]| | |] eqn:W; try discriminate. cbn [bind fst snd] in D.
    destruct (drive b1 l) as [[b2 o2]| | |] eqn:D2; try discriminate. cbn [bind fst snd] in D. injection D as <- <-.
    pose proof O as ((S1 & S2) & A & N & rest & M).
    unfold Drain, assert, zl in W. rewrite repeat_length in W.
    destruct ((0 <=? 0) && (0 <? Z.of_nat n) && (0 + Z.of_nat n <=? Z.of_nat n)) eqn:C1; [|discriminate].
    destruct (avail b + Z.of_nat n <=? size b) eqn:C2; [|discriminate].
    destruct (cut w n ltac:(lia)) as (x & y & -> & LX). subst n. rewrite app_length in *.
    destruct (Nat.le_gt_cases (length y) (length x)) as [L|L].
    + assert (NE : x <> []) by (intros ->; cbn in C1; discriminate).
      destruct (C95_drain_partial b x y (repeat 0 (length x)) 0 O NE L ltac:(lia) ltac:(rewrite repeat_length; lia)) as (b3 & E3 & O3).
      assert (Drain b (repeat 0 (length x)) 0 (Z.of_nat (length x)) = Ok (b1, d)).
      { unfold Drain, assert, zl. rewrite repeat_length, C1, C2. exact W. }
      rewrite E3 in H. injection H as <- <-. destruct (IH _ _ _ _ O3 D2) as (w' & O' & E). exists w'. split; [exact O'|].
      replace (replaced (repeat 0 (length x)) 0 x) with x.
      * rewrite <- !app_assoc. rewrite E. cbn [puts flat_map app]. reflexivity.
      * unfold replaced. cbn [Z.to_nat firstn app plus]. rewrite skipn_all2 by (rewrite repeat_length; lia). rewrite app_nil_r. reflexivity.
    + exfalso. cbn [bind] in W. destruct (load (mem b) 0 (Z.of_nat (length x))) as [z| | |]; cbn [bind] in W; try discriminate.
      destruct (store (repeat 0 (length x)) 0 z) as [z2| | |]; cbn [bind] in W; try discriminate.
      unfold move in W. replace (_ && _) with true in W by lia. discriminate.
Qed.

(** The full claims fail.  Fill loses the bytes still to be read, and then the buffer claims bytes outside its memory. *)
Definition empty4 : buffer := {| avail := 0; size := 4; totalOut := 0; totalIn := 0; next := 4; mem := [0; 0; 0; 0] |}.
Theorem C95_fill_refuted : exists b1 b2 b3 c1 c2, Fill empty4 [65; 66] 0 2 = Ok b1 /\ Read b1 = Ok (b2, c1) /\ c1 = [65] /\ input b2 [65] [66] /\
  Fill b2 [67; 68; 69] 0 3 = Ok b3 /\ (let* r := Read b3 in Ok (snd r)) = Ok c2 /\ c2 = [67] /\ ReadBytes b3 [0; 0; 0; 0] 0 4 = UB.
Proof.
  do 5 eexists. split; [vm_compute; reflexivity|]. split; [vm_compute; reflexivity|]. split; [reflexivity|]. split.
  - split; [split; cbn; lia|]. cbn. repeat split; try lia. exists [0; 0]. reflexivity.
  - split; [vm_compute; reflexivity|]. split; [vm_compute; reflexivity|]. split; [reflexivity|]. vm_compute. reflexivity.
Qed.
(** Fill copies overlapping memory although the comment at the head of the module excludes it. *)
Theorem C95_overlap_refuted : exists b done todo, input b done todo /\ done = [65] /\ todo = [66; 67] /\ Fill b [68] 0 1 = UB.
Proof.
  exists {| avail := 2; size := 4; totalOut := 0; totalIn := 1; next := 1; mem := [65; 66; 67; 0] |}, [65], [66; 67]. split; [|repeat split; vm_compute; reflexivity].
  split; [split; cbn; lia|]. cbn. repeat split; try lia. eexists. reflexivity.
Qed.
(** Reread accepts to go back before the beginning. *)
Theorem C95_reread_refuted : exists b b', input b [] [65] /\ Reread b 2 = Ok b' /\ Read b' = UB.
Proof.
  exists {| avail := 1; size := 4; totalOut := 0; totalIn := 0; next := 0; mem := [65; 0; 0; 0] |}. eexists. split; [|split; vm_compute; reflexivity].
  split; [split; cbn; lia|]. cbn. repeat split; try lia. eexists. reflexivity.
Qed.
(** Draining less than half of the bytes copies overlapping memory. *)
Theorem C95_drain_refuted : exists b w, output b w /\ w = [65; 66; 67] /\ Drain b [0; 0; 0; 0] 0 1 = UB.
Proof.
  exists {| avail := 1; size := 4; totalOut := 3; totalIn := 0; next := 3; mem := [65; 66; 67; 0] |}, [65; 66; 67]. split; [|split; [reflexivity|vm_compute; reflexivity]].
  split; [split; cbn; lia|]. cbn. repeat split; try lia. eexists. reflexivity.
Qed.
Example C95_met : exists b0 b1 b2, Init empty4 [9; 9; 9; 9; 9; 9] 1 4 4 = Ok b0 /\ output b0 [] /\ drive b0 [Put [1; 2; 3]; Take 2; Put [4; 5]; Take 2; Take 1] = Ok (b1, [1; 2; 3; 4; 5]) /\
  Init empty4 [7; 8; 9; 10; 11] 1 4 3 = Ok b2 /\ input b2 [] [8; 9; 10] /\ (let* r := ReadBytes b2 [0; 0; 0] 1 2 in Ok (snd r)) = Ok [0; 8; 9].
Proof.
  do 3 eexists. split; [vm_compute; reflexivity|]. split; [split; [split; cbn; lia|]; cbn; repeat split; try lia; eexists; reflexivity|]. split; [vm_compute; reflexivity|].
  split; [vm_compute; reflexivity|]. split; [split; [split; cbn; lia|]; cbn; repeat split; try lia; eexists; reflexivity|]. vm_compute. reflexivity.
Qed.
Print Assumptions C95_init. Print Assumptions C95_read. Print Assumptions C95_reread_partial. Print Assumptions C95_fill_partial. Print Assumptions C95_rewind. Print Assumptions C95_write.
Print Assumptions C95_drain_partial. Print Assumptions C95_rewrite. Print Assumptions C95_stream. Print Assumptions C95_fill_refuted. Print Assumptions C95_reread_refuted. Print Assumptions C95_drain_refuted.
Print Assumptions C95_overlap_refuted.
