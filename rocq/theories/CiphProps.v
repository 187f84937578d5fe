(** C107: adding streams modulo 2. *)
From Verif Require Import Base ArrZ CiphModel CiphSpec.
Lemma bok : forall A B (a : A) (k : A -> res B), bind (Ok a) k = k a. Proof. reflexivity. Qed.
Lemma low_bits : forall b i, 0 <= i < 8 -> Z.testbit (wrap_s 8 b) i = Z.testbit b i.
Proof.
  intros b i H. rewrite <- (Z.mod_pow2_bits_low (wrap_s 8 b) 8 i) by lia. rewrite <- (Z.mod_pow2_bits_low b 8 i) by lia. f_equal. unfold wrap_s. change (2 ^ (8 - 1)) with 128. change (2 ^ 8) with 256. lia.
Qed.
Lemma byte_bits : forall b i, 0 <= b < 256 -> 8 <= i -> Z.testbit b i = false.
Proof. intros b i R H. replace b with (b mod 2 ^ 8) by (apply Z.mod_small; exact R). apply Z.mod_pow2_bits_high. lia. Qed.
(** Bytes are added bit by bit. *)
Theorem C107_byte : forall a b, 0 <= a < 256 -> 0 <= b < 256 -> XorByte a b = Z.lxor a b /\ 0 <= XorByte a b < 256.
Proof.
  intros a b Ha Hb. split; [|apply Z.mod_pos_bound; lia]. apply Z.bits_inj'. intros i Hi. unfold XorByte. change 256 with (2 ^ 8). destruct (Z.lt_ge_cases i 8) as [C|C].
  - rewrite Z.mod_pow2_bits_low by lia. rewrite !Z.lxor_spec, !low_bits by lia. reflexivity.
  - rewrite Z.mod_pow2_bits_high by lia. rewrite Z.lxor_spec, !byte_bits by lia. reflexivity.
Qed.
Lemma loop_count : forall in1 in2 out n, bytes in1 -> bytes in2 -> 0 <= n < 2 ^ 31 ->
  exists r1 r2, xor_loop in1 in2 out false n = Ok ((n <=? zlen in1) && (n <=? zlen in2), r1, r2, out ++ sum (firstn (Z.to_nat n) in1) in2) /\ (n <= zlen in1 -> n <= zlen in2 -> r1 = skipn (Z.to_nat n) in1 /\ r2 = skipn (Z.to_nat n) in2).
Proof.
  induction in1 as [|a in1 IH]; intros in2 out n F1 F2 Hn; cbn [xor_loop orb]; destruct (n >? 0) eqn:C.
  - exists [], in2. change (zlen (@nil Z)) with 0. replace (n <=? 0) with false by lia. rewrite firstn_nil. cbn [andb sum combine map]. rewrite app_nil_r. split; [reflexivity|lia].
  - assert (n = 0) by lia. subst n. exists [], in2. change (zlen (@nil Z)) with 0. pose proof (zlen_nonneg _ in2). replace (0 <=? zlen in2) with true by lia. cbn. rewrite app_nil_r. split; [reflexivity|auto].
  - pose proof (zlen_nonneg _ in1). destruct in2 as [|b in2].
    + exists in1, []. change (zlen (@nil Z)) with 0. replace (n <=? 0) with false by lia. rewrite Bool.andb_false_r. unfold sum. rewrite combine_nil. cbn [map]. rewrite app_nil_r. split; [reflexivity|lia].
    + inversion F1 as [|? ? A1 F1']; subst. inversion F2 as [|? ? B1 F2']; subst. assert (K : chk 32 (n - 1) = Ok (n - 1)). { unfold chk, in_intb. change (2 ^ (32 - 1)) with (2 ^ 31). replace ((- 2 ^ 31 <=? n - 1) && (n - 1 <? 2 ^ 31)) with true by lia. reflexivity. } rewrite K, bok.
      destruct (IH in2 (out ++ [XorByte a b]) (n - 1) F1' F2' ltac:(lia)) as (r1 & r2 & E & R). exists r1, r2. rewrite E. rewrite !zlen_cons. replace (Z.to_nat n) with (S (Z.to_nat (n - 1))) by lia. cbn [firstn skipn sum combine map fst snd]. split.
      * rewrite <- app_assoc. cbn [app]. rewrite (proj1 (C107_byte a b A1 B1)). replace ((n <=? 1 + zlen in1) && (n <=? 1 + zlen in2)) with ((n - 1 <=? zlen in1) && (n - 1 <=? zlen in2)) by lia. reflexivity.
      * intros L1 L2. apply R; lia.
  - assert (n = 0) by lia. subst n. exists (a :: in1), in2. pose proof (zlen_nonneg _ in2). pose proof (zlen_nonneg _ (a :: in1)). replace (0 <=? zlen in2) with true by lia. replace (0 <=? zlen (a :: in1)) with true by lia. cbn. rewrite app_nil_r. split; [reflexivity|auto].
Qed.
(** With a length: that many bytes are added, TRUE is returned exactly if both inputs have them, and nothing more is read then. *)
Theorem C107_count : forall in1 in2 out n, bytes in1 -> bytes in2 -> 0 <= n < 2 ^ 31 ->
  exists ok r1 r2, XorStream in1 in2 out n = Ok (ok, r1, r2, out ++ sum (firstn (Z.to_nat n) in1) in2) /\ (ok = true <-> n <= zlen in1 /\ n <= zlen in2) /\ (ok = true -> r1 = skipn (Z.to_nat n) in1 /\ r2 = skipn (Z.to_nat n) in2).
Proof.
  intros in1 in2 out n F1 F2 Hn. unfold XorStream. replace (n <? 0) with false by lia. destruct (loop_count in1 in2 out n F1 F2 Hn) as (r1 & r2 & E & R). exists ((n <=? zlen in1) && (n <=? zlen in2)), r1, r2. split; [exact E|]. split; [lia|]. intros T. apply R; lia.
Qed.
(** Without a length: as long as both inputs have bytes. *)
Theorem C107_whole_partial : forall in1 in2 out n, bytes in1 -> bytes in2 -> - 2 ^ 31 <= n < 0 -> zlen in1 <= n + 2 ^ 31 ->
  exists r1 r2, XorStream in1 in2 out n = Ok (true, r1, r2, out ++ sum in1 in2).
Proof.
  intros in1 in2 out n F1 F2 Hn. unfold XorStream. replace (n <? 0) with true by lia. revert in2 out n F2 Hn. induction F1 as [|a in1 A1 F1 IH]; intros in2 out n F2 Hn L; cbn [xor_loop orb].
  - exists [], in2. cbn [sum combine map]. rewrite app_nil_r. reflexivity.
  - destruct F2 as [|b in2 B1 F2]; [exists in1, []; unfold sum; rewrite combine_nil; cbn [map]; rewrite app_nil_r; reflexivity|].
    rewrite zlen_cons in L. pose proof (zlen_nonneg _ in1). assert (K : chk 32 (n - 1) = Ok (n - 1)). { unfold chk, in_intb. change (2 ^ (32 - 1)) with (2 ^ 31). replace ((- 2 ^ 31 <=? n - 1) && (n - 1 <? 2 ^ 31)) with true by lia. reflexivity. } rewrite K, bok.
    destruct (IH in2 (out ++ [XorByte a b]) (n - 1) F2 ltac:(lia) ltac:(lia)) as (r1 & r2 & E). exists r1, r2. rewrite E. rewrite <- app_assoc. cbn [app sum combine map fst snd]. rewrite (proj1 (C107_byte a b A1 B1)). reflexivity.
Qed.
(** Adding the same key again gives the text back. *)
Lemma sum_twice : forall a k, (length a <= length k)%nat -> sum (sum a k) k = a.
Proof.
  induction a as [|x a IH]; intros [|y k] L; cbn [length] in L; try lia; try reflexivity. unfold sum in *. cbn [combine map fst snd]. rewrite IH by lia. rewrite Z.lxor_assoc, Z.lxor_nilpotent, Z.lxor_0_r. reflexivity.
Qed.
Lemma sum_bytes : forall a k, bytes a -> bytes k -> bytes (sum a k).
Proof.
  intros a k F. revert k. induction F as [|x a X F IH]; intros k K; [constructor|]. destruct K as [|y k Y K]; [constructor|]. unfold sum. cbn [combine map fst snd]. constructor; [|apply IH; exact K]. destruct (C107_byte x y X Y) as (<- & R). exact R.
Qed.
Lemma sum_length : forall a k, (length a <= length k)%nat -> length (sum a k) = length a.
Proof. intros a k L. unfold sum. rewrite map_length, combine_length. lia. Qed.
Theorem C107_decipher : forall text key n, bytes text -> bytes key -> n = zlen text -> n < 2 ^ 31 -> n <= zlen key ->
  exists cipher k1 k2, XorStream text key [] n = Ok (true, [], k1, cipher) /\ XorStream cipher key [] n = Ok (true, [], k2, text).
Proof.
  intros text key n Ft Fk En Ln Lk. pose proof (zlen_nonneg _ text). exists (sum text key). assert (Lt : (length text <= length key)%nat) by (unfold zlen in *; lia). pose proof (sum_length text key Lt) as Ls.
  destruct (C107_count text key [] n Ft Fk ltac:(lia)) as (ok & r1 & r2 & E & T & R). destruct T as [_ T]. specialize (T ltac:(lia)). subst ok. destruct (R eq_refl) as [-> ->].
  destruct (C107_count (sum text key) key [] n (sum_bytes _ _ Ft Fk) Fk ltac:(lia)) as (ok & r1 & r2 & E2 & T2 & R2). destruct T2 as [_ T2]. specialize (T2 ltac:(unfold zlen in *; lia)). subst ok. destruct (R2 eq_refl) as [-> ->].
  exists (skipn (Z.to_nat n) key), (skipn (Z.to_nat n) key). rewrite E, E2. cbn [app]. rewrite (firstn_all2 text), (firstn_all2 (sum text key)), (skipn_all2 text), (skipn_all2 (sum text key)) by (unfold zlen in *; lia). rewrite sum_twice by exact Lt. split; reflexivity.
Qed.
(** Without a length a key that is too short is not reported: the text is cut, and one byte of it is lost. *)
Theorem C107_short_refuted : forall text c more key, bytes (text ++ c :: more) -> bytes key -> length key = length text -> zlen text < 2 ^ 31 - 1 -> XorStream (text ++ c :: more) key [] (-1) = Ok (true, more, [], sum text key).
Proof.
  intros text c more key Ft Fk L Lt. unfold XorStream. cbn [Z.ltb Z.compare].
  assert (G : forall text key out n, bytes text -> bytes key -> length key = length text -> - 2 ^ 31 <= n < 0 -> zlen text <= n + 2 ^ 31 -> xor_loop (text ++ c :: more) key out true n = Ok (true, more, [], out ++ sum text key)).
  { clear. induction text as [|a text IH]; intros [|b key] out n Ft Fk L Hn Lt; try discriminate; cbn [app xor_loop orb].
    - cbn. rewrite app_nil_r. reflexivity.
    - inversion Ft as [|? ? A1 F1]; subst. inversion Fk as [|? ? B1 F2]; subst. rewrite zlen_cons in Lt. pose proof (zlen_nonneg _ text). assert (K : chk 32 (n - 1) = Ok (n - 1)). { unfold chk, in_intb. change (2 ^ (32 - 1)) with (2 ^ 31). replace ((- 2 ^ 31 <=? n - 1) && (n - 1 <? 2 ^ 31)) with true by lia. reflexivity. } rewrite K, bok.
      cbn [length] in L. rewrite (IH key _ (n - 1) F1 F2) by lia. rewrite <- app_assoc. cbn [app sum combine map fst snd]. rewrite (proj1 (C107_byte a b A1 B1)). reflexivity. }
  apply (G text key [] (-1)); [|exact Fk|exact L|lia|lia]. unfold bytes in Ft. apply Forall_app in Ft. tauto.
Qed.
(** Without a length the counter runs on: with the lowest number, the first byte overflows it. *)
Theorem C107_counter_refuted : forall a b l k, XorStream (a :: l) (b :: k) [] (- 2 ^ 31) = UB.
Proof. reflexivity. Qed.
(** Streams that meet the hypotheses. *)
Example C107_met : bytes [200; 1; 255] /\ bytes [170; 3; 15; 9] /\ XorStream [200; 1; 255] [170; 3; 15; 9] [] 3 = Ok (true, [], [9], [98; 2; 240]) /\ XorStream [98; 2; 240] [170; 3; 15; 9] [] (-1) = Ok (true, [], [9], [200; 1; 255]).
Proof. split; [repeat constructor; lia|]. split; [repeat constructor; lia|]. split; vm_compute; reflexivity. Qed.

Print Assumptions C107_byte.
Print Assumptions C107_count.
Print Assumptions C107_whole_partial.
Print Assumptions C107_decipher.
Print Assumptions C107_short_refuted.
Print Assumptions C107_counter_refuted.
