(** Properties C26 and C27: standard input. *)
From Verif Require Import Base ArrZ ArithModel ArithSpec ArithProofs PathProofs OutModel OutSpec OutProofs OutHexProofs OutProps InModel InProofs.

(** * C26: numbers *)
(** What may follow a number: anything but a hexadecimal digit or the letter H. *)
Definition hexdigit (c : Z) : Prop := 48 <= c <= 57 \/ 65 <= c <= 70 \/ 97 <= c <= 102.
Definition number_ends (f : list Z) : Prop := match f with c :: _ => ~ hexdigit c /\ c <> 72 | [] => True end.
Definition all_blank (ws : list Z) : Prop := Forall (fun c => c <= 32) ws.

Lemma number_ends_dv : forall f, number_ends f -> ends_number f.
Proof.
  intros [|c f] H; [exact I|]. destruct H as [H1 H2]. split; auto. unfold hexdigit in H1. unfold dv, digit_of.
  destruct ((48 <=? c) && (c <=? 57)) eqn:A; [lia|]. destruct ((97 <=? c) && (c <=? 102) || (65 <=? c) && (c <=? 70)) eqn:B; [lia|]. cbn [fst]. lia.
Qed.
Lemma digits_dv : forall base ds v, numeral base ds v -> Forall (fun c => 0 <= dv c) ds.
Proof.
  intros base ds v H. induction H as [|l u c d H IH Hc Hd]; [constructor|]. apply Forall_app. split; auto. constructor; [|constructor].
  unfold dv. rewrite (digval_dv _ _ Hc). cbn [fst]. lia.
Qed.
Lemma digits_dec : forall base ds v, base <= 10 -> numeral base ds v -> existsb (fun c => snd (digit_of c)) ds = false.
Proof.
  intros base ds v Hb H. induction H as [|l u c d H IH Hc Hd]; [reflexivity|]. rewrite existsb_app, IH. cbn [existsb orb].
  rewrite (digval_dv _ _ Hc). cbn [snd]. replace (d <? 10) with true by lia. reflexivity.
Qed.
Lemma digits_gt32 : forall base c ds v, numeral base (c :: ds) v -> 32 < c /\ c <> 45.
Proof.
  intros base c ds v H. remember (c :: ds) as l eqn:E. revert c ds E. induction H as [|l u e d H IH He Hd]; intros c ds E; [discriminate|].
  destruct l as [|a l]; cbn [app] in E; inversion E; subst.
  - unfold digval in He. destruct ((48 <=? c) && (c <=? 57)) eqn:A; [lia|]. destruct ((65 <=? c) && (c <=? 70)) eqn:B; [lia|discriminate].
  - eapply IH. reflexivity.
Qed.
Lemma wrap_neg : forall v, wrap_s 64 (- wrap_s 64 v) = wrap_s 64 (- v).
Proof.
  intro v. apply wrap_s_cong. replace (- wrap_s 64 v) with (0 - wrap_s 64 v) by lia. replace (- v) with (0 - v) by lia.
  rewrite Zminus_mod, wrap_s_mod by lia. rewrite <- Zminus_mod. reflexivity.
Qed.

(** The common skeleton: blanks, an optional minus sign, digits [ds], then [f]. *)
Lemma HugeInt_enter : forall arith h ws (neg : bool) c ds f s, all_blank ws -> 32 < c -> c <> 45 ->
  Avail s (ws ++ (if neg then [45] else []) ++ (c :: ds) ++ f) ->
  exists s1, At s1 ((c :: ds) ++ f) /\ done s1 = false /\
    HugeInt arith h s = (let* r := hugeint_loop (length (c :: ds) + S (S (length f))) arith false false 0 0 s1 in
      let '(hex, decacc, hexacc, s) := r in
      if done s then let* h := (if neg then arith (- (if hex then hexacc else decacc)) else Ok (if hex then hexacc else decacc)) in Ok (s, h) else Ok (s, 0)).
Proof.
  intros arith h ws neg c ds f s W C1 C2 H. unfold HugeInt.
  destruct (StartAndSkip_spec ws ((if neg then [45] else []) ++ (c :: ds) ++ f) s W) as (s0 & A & B & D); auto.
  { destruct neg; cbn [app]; lia. }
  rewrite A, bind_ok. pose proof (At_setdone _ _ false B) as B'. rewrite (At_ready _ _ B').
  replace (match (if neg then [45] else []) ++ (c :: ds) ++ f with [] => false | _ => true end) with true by (destruct neg; reflexivity).
  destruct neg; cbn [app] in B'.
  - rewrite (At_next _ _ _ B'). change (45 =? 45) with true. cbv iota. destruct (ReadChar_At _ _ _ B') as [E F].
    exists (ReadChar (setdone false s0)). split; auto. split; [rewrite F; reflexivity|].
    replace (S (S (S (length (rest (ReadChar (setdone false s0))))))) with (length (c :: ds) + S (S (length f)))%nat; [reflexivity|].
    destruct E as (_ & _ & ->). cbn [length]. rewrite app_length. lia.
  - rewrite (At_next _ _ _ B'). replace (c =? 45) with false by lia. exists (setdone false s0). split; auto. split; auto.
    replace (S (S (S (length (rest (setdone false s0)))))) with (length (c :: ds) + S (S (length f)))%nat; [reflexivity|].
    destruct B' as (_ & _ & ->). cbn [length]. rewrite app_length. lia.
Qed.

(** In.HugeInt reads back what Out.Int wrote: every 64-bit number, any field width, any blanks before, anything but hexadecimal digits
    or H after it, which is left unread.  Stated for wrapping arithmetic. *)
Theorem C26_int_roundtrip : forall x t n ws f h s, in_int 64 x -> is_int_text x t -> all_blank ws -> number_ends f ->
  Avail s (ws ++ padded n t ++ f) -> exists s', HugeInt wrapA h s = Ok (s', x) /\ done s' = true /\ Avail s' f.
Proof.
  intros x t n ws f h s Hx (ds & -> & Nm & NZ) W E H. destruct ds as [|c ds]; [contradiction|].
  destruct (digits_gt32 _ _ _ _ Nm) as [C1 C2]. unfold padded in H.
  set (t := (if x <? 0 then [45] else []) ++ c :: ds) in *. set (bl := repeat 32 (Z.to_nat (n - zlen t))) in *.
  replace (ws ++ (bl ++ t) ++ f) with ((ws ++ bl) ++ (if x <? 0 then [45] else []) ++ (c :: ds) ++ f) in H by (unfold t; rewrite <- !app_assoc; reflexivity).
  assert (W2 : all_blank (ws ++ bl)).
  { apply Forall_app. split; auto. apply Forall_forall. intros y Hy. apply repeat_spec in Hy. lia. }
  destruct (HugeInt_enter wrapA h (ws ++ bl) (x <? 0) c ds f s W2 C1 C2 H) as (s1 & A & B & ->).
  change (hugeint_loop (length (c :: ds) + S (S (length f))) wrapA false false 0 0 s1) with (hugeint_loop (length (c :: ds) + S (S (length f))) wrapA false false (wrap_s 64 0) (wrap_s 64 0) s1).
  destruct (loop_wrap (c :: ds) f (S (S (length f))) false 0 0 s1 A (digits_dv _ _ _ Nm)) as (s2 & C & D & ->).
  rewrite (loop_end wrapA f (length f)) by (auto; apply number_ends_dv; auto). rewrite bind_ok. cbv iota beta. rewrite D, orb_true_r. rewrite (digits_dec 10 _ _ ltac:(lia) Nm).
  cbn [orb]. rewrite (acc_numeral _ _ _ Nm). exists s2. split; [|split; [rewrite D, orb_true_r; reflexivity|left; auto]].
  pose proof (proj1 (in_int64 x) Hx) as Hr. destruct (x <? 0) eqn:Ex; unfold wrapA; rewrite bind_ok; do 2 f_equal.
  - rewrite wrap_neg. replace (- Z.abs x) with x by lia. apply wrap_s_id; [lia|auto].
  - replace (Z.abs x) with x by lia. apply wrap_s_id; [lia|auto].
Qed.
Print Assumptions C26_int_roundtrip.

(** The two modules together: what Out.Int has written to an empty output is read back from it. *)
Corollary C26_in_reads_out : forall b x n f h s, zlen b = 22 -> in_int 64 x -> number_ends f -> OInt full b x n oinit = Ok s ->
  exists s', HugeInt wrapA h (iinit (delivered (OFlush full s) ++ f)) = Ok (s', x) /\ done s' = true /\ Avail s' f.
Proof.
  intros b x n f h s Hb Hx E H. assert (I0 : OInv oinit) by (split; cbn; [reflexivity|lia]).
  destruct (C23_int b x n oinit I0 Hb Hx) as (s1 & t & A & B & C & D). rewrite A in H. injection H as <-.
  destruct (OFlush_spec s1 B) as (_ & _ & _ & ->). rewrite D. apply (C26_int_roundtrip x t n [] f h); auto; [constructor|]. apply Avail_init.
Qed.
Print Assumptions C26_in_reads_out.

(** Hexadecimal input: digits 0-9 A-F followed by H give the value modulo 2^64 as a signed number; H is consumed. *)
Theorem C26_hex : forall v ds ws f h s, numeral 16 ds v -> ds <> [] -> all_blank ws -> Avail s (ws ++ ds ++ 72 :: f) ->
  exists s', HugeInt wrapA h s = Ok (s', wrap_s 64 v) /\ done s' = true /\ Avail s' f.
Proof.
  intros v ds ws f h s Nm NE W H. destruct ds as [|c ds]; [congruence|]. destruct (digits_gt32 _ _ _ _ Nm) as [C1 C2].
  destruct (HugeInt_enter wrapA h ws false c ds (72 :: f) s W C1 C2 H) as (s1 & A & B & ->).
  change (hugeint_loop (length (c :: ds) + S (S (length (72 :: f)))) wrapA false false 0 0 s1) with (hugeint_loop (length (c :: ds) + S (S (length (72 :: f)))) wrapA false false (wrap_s 64 0) (wrap_s 64 0) s1).
  destruct (loop_wrap (c :: ds) (72 :: f) (S (S (length (72 :: f)))) false 0 0 s1 A (digits_dv _ _ _ Nm)) as (s2 & C & D & ->).
  destruct (loop_H wrapA f (length (72 :: f)) (false || existsb (fun c0 => snd (digit_of c0)) (c :: ds)) (wrap_s 64 (acc 10 0 (c :: ds))) (wrap_s 64 (acc 16 0 (c :: ds))) s2 C) as (s3 & E & F & ->).
  rewrite bind_ok. cbv iota beta. rewrite F, D, orb_true_r. rewrite bind_ok. rewrite (acc_numeral _ _ _ Nm). exists s3. split; auto. split; [rewrite F, D, orb_true_r; auto|left; auto].
Qed.
Print Assumptions C26_hex.
(** So Out.Hex(x, 16) followed by the letter H is read back as x. *)
Corollary C26_hex_reads_out : forall x f h s, in_int 64 x -> OHex full ROT_wrap x 16 oinit = Ok s ->
  exists s', HugeInt wrapA h (iinit (delivered (OFlush full s) ++ 72 :: f)) = Ok (s', x) /\ done s' = true /\ Avail s' f.
Proof.
  intros x f h s Hx H. assert (I0 : OInv oinit) by (split; cbn; [reflexivity|lia]). pose proof (proj1 (in_int64 x) Hx) as Hr.
  assert (G : exists ds v, delivered (OFlush full s) = ds /\ numeral 16 ds v /\ ds <> [] /\ wrap_s 64 v = x).
  { destruct (Z_lt_le_dec x 0) as [N|N].
    - destruct (C24_hex_negative x 16 oinit I0) as (s1 & ds & A & B & C & D & E); [change (2 ^ 63) with 9223372036854775808; lia|].
      rewrite A in H. injection H as <-. destruct (OFlush_spec s1 B) as (_ & _ & _ & ->). rewrite C. exists ds, (x mod 2 ^ 64). split; auto.
      change (clampw 16) with 16 in *. change (16 ^ 16) with (2 ^ 64) in E. rewrite Z.mod_mod in E by lia. split; auto.
      split; [intros ->; rewrite zlen_nil in D; lia|]. rewrite <- (wrap_s_id 64 x) at 2 by (auto; lia). apply wrap_s_cong. apply Z.mod_mod. lia.
    - destruct (C24_hex_nonneg x 16 oinit I0) as (s1 & ds & A & B & C & D & E & _); [change (2 ^ 63) with 9223372036854775808; lia|].
      rewrite A in H. injection H as <-. destruct (OFlush_spec s1 B) as (_ & _ & _ & ->). rewrite C. exists ds, x. split; auto. split; auto.
      change (clampw 16) with 16 in *. split; [intros ->; rewrite zlen_nil in E; lia|]. apply wrap_s_id; [lia|auto]. }
  destruct G as (ds & v & -> & Nm & NE & <-). apply (C26_hex v ds [] f h); auto; [constructor|apply Avail_init].
Qed.
Print Assumptions C26_hex_reads_out.

(** In C proper signed overflow is undefined.  Every decimal number is also accumulated as if it were hexadecimal, so the range that is
    certainly read correctly is smaller: up to 15 digits. *)
Theorem C26_int_strict_partial : forall x t n ws f h s, Z.abs x < 10 ^ 15 -> is_int_text x t -> all_blank ws -> number_ends f ->
  Avail s (ws ++ padded n t ++ f) -> exists s', HugeInt (chk 64) h s = Ok (s', x) /\ done s' = true /\ Avail s' f.
Proof.
  intros x t n ws f h s Hx (ds & -> & Nm & NZ) W E H. destruct ds as [|c ds]; [contradiction|].
  destruct (digits_gt32 _ _ _ _ Nm) as [C1 C2]. unfold padded in H.
  set (t := (if x <? 0 then [45] else []) ++ c :: ds) in *. set (bl := repeat 32 (Z.to_nat (n - zlen t))) in *.
  replace (ws ++ (bl ++ t) ++ f) with ((ws ++ bl) ++ (if x <? 0 then [45] else []) ++ (c :: ds) ++ f) in H by (unfold t; rewrite <- !app_assoc; reflexivity).
  assert (W2 : all_blank (ws ++ bl)).
  { apply Forall_app. split; auto. apply Forall_forall. intros y Hy. apply repeat_spec in Hy. lia. }
  destruct (HugeInt_enter (chk 64) h (ws ++ bl) (x <? 0) c ds f s W2 C1 C2 H) as (s1 & A & B & ->).
  assert (L15 : zlen (c :: ds) <= 15).
  { destruct (Z.eq_dec (Z.abs x) 0) as [Z0|Z0].
    - destruct ds as [|e ds]; [rewrite zlen_cons, zlen_nil; lia|]. rewrite Z0 in Nm. pose proof (proj2 (numeral_pos 10 _ _ ltac:(lia) Nm) c (e :: ds) eq_refl NZ). lia.
    - pose proof (numeral_lower 10 _ _ ltac:(lia) Nm NZ ltac:(lia)) as Lw. destruct (Z_lt_le_dec 15 (zlen (c :: ds))) as [Q|Q]; [|lia]. exfalso.
      assert (10 ^ 15 <= 10 ^ (zlen (c :: ds) - 1)) by (apply Z.pow_le_mono_r; lia). lia. }
  assert (U16 : acc 16 0 (c :: ds) < 2 ^ 63).
  { assert (G : forall l a, Forall (fun c => 0 <= dv c) l -> Forall (fun c => dv c < 10) l -> 0 <= a -> acc 16 a l < (a + 1) * 16 ^ zlen l).
    { clear. induction l as [|e l IH]; intros a F1 F2 Ha; [unfold acc; cbn [fold_left]; rewrite zlen_nil, Z.pow_0_r; lia|]. inversion F1; inversion F2; subst.
      rewrite acc_cons, zlen_cons. pose proof (zlen_nonneg _ l). rewrite Z.pow_add_r, Z.pow_1_r by lia. specialize (IH (a * 16 + dv e) H2 H6 ltac:(lia)).
      assert (0 < 16 ^ zlen l) by (apply Z.pow_pos_nonneg; lia). nia. }
    assert (F2 : Forall (fun c => dv c < 10) (c :: ds)).
    { clear - Nm. induction Nm as [|l u e d H IH He Hd]; [constructor|]. apply Forall_app. split; auto. constructor; [|constructor]. unfold dv. rewrite (digval_dv _ _ He). cbn [fst]. lia. }
    pose proof (G _ 0 (digits_dv _ _ _ Nm) F2 ltac:(lia)) as G1. assert (16 ^ zlen (c :: ds) <= 16 ^ 15) by (apply Z.pow_le_mono_r; lia).
    change (16 ^ 15) with 1152921504606846976 in *. change (2 ^ 63) with 9223372036854775808. lia. }
  assert (U10 : acc 10 0 (c :: ds) < 2 ^ 63).
  { rewrite (acc_numeral _ _ _ Nm). change (10 ^ 15) with 1000000000000000 in Hx. change (2 ^ 63) with 9223372036854775808. lia. }
  destruct (loop_strict (c :: ds) f (S (S (length f))) false 0 0 s1 A (digits_dv _ _ _ Nm)) as (s2 & C & D & ->); try lia.
  rewrite (loop_end (chk 64) f (length f)) by (auto; apply number_ends_dv; auto). rewrite bind_ok. cbv iota beta. rewrite D, orb_true_r. rewrite (digits_dec 10 _ _ ltac:(lia) Nm).
  cbn [orb]. rewrite (acc_numeral _ _ _ Nm). exists s2. split; [|split; [rewrite D, orb_true_r; reflexivity|left; auto]].
  change (10 ^ 15) with 1000000000000000 in Hx. destruct (x <? 0) eqn:Ex.
  - rewrite chk_ok by (apply in_int64; lia). rewrite bind_ok. do 2 f_equal. lia.
  - rewrite bind_ok. do 2 f_equal. lia.
Qed.
Print Assumptions C26_int_strict_partial.
Theorem C26_int_overflow_refuted : exists x t, in_int 64 x /\ is_int_text x t /\ HugeInt (chk 64) 0 (iinit t) = UB.
Proof.
  assert (I0 : OInv oinit) by (split; cbn; [reflexivity|lia]).
  assert (Hx : in_int 64 9000000000000000) by (apply in_int64; lia).
  destruct (C23_int (repeat 0 22) 9000000000000000 0 oinit I0 eq_refl Hx) as (s & t & A & B & C & D).
  exists 9000000000000000, t. split; auto. split; auto.
  assert (E : match OInt full (repeat 0 22) 9000000000000000 0 oinit with Ok s => HugeInt (chk 64) 0 (iinit (otext s)) = UB | _ => False end) by (vm_compute; reflexivity).
  rewrite A, D in E. change (otext oinit) with (@nil Z) in E. cbn [app] in E. unfold padded in E.
  assert (P : Z.to_nat (0 - zlen t) = O) by (pose proof (zlen_nonneg _ t); lia). rewrite P in E. exact E.
Qed.
Print Assumptions C26_int_overflow_refuted.
(** In.Int and In.LongInt keep the low-order bits only: a number that does not fit is changed silently, with Done = TRUE. *)
Theorem C26_short_truncates_refuted : exists t s', is_int_text 65537 t /\ InInt (chk 64) 0 (iinit t) = Ok (s', 1) /\ done s' = true.
Proof.
  exists [54; 53; 53; 51; 55]. eexists. split.
  - exists [54; 53; 53; 51; 55]. split; [reflexivity|]. split; [|cbn; lia]. change (Z.abs 65537) with ((((((0 * 10 + 6) * 10 + 5) * 10 + 5) * 10 + 3) * 10) + 7).
    assert (S : forall l v c d, numeral 10 l v -> digval c = Some d -> 0 <= d < 10 -> numeral 10 (l ++ [c]) (v * 10 + d)) by (intros; apply numeral_snoc; auto).
    apply (S [54; 53; 53; 51] _ 55); [|reflexivity|lia]. apply (S [54; 53; 53] _ 51); [|reflexivity|lia]. apply (S [54; 53] _ 53); [|reflexivity|lia].
    apply (S [54] _ 53); [|reflexivity|lia]. apply (S [] _ 54); [constructor|reflexivity|lia].
  - split; vm_compute; reflexivity.
Qed.
Print Assumptions C26_short_truncates_refuted.

(** * C27: characters, lines and strings *)
Theorem C27_char : forall s l, Avail s l ->
  match l with
  | c :: r => snd (IChar s) = c /\ done (fst (IChar s)) = true /\ Avail (fst (IChar s)) r
  | [] => snd (IChar s) = 0 /\ done (fst (IChar s)) = false /\ Avail (fst (IChar s)) []
  end.
Proof.
  intros s l H. unfold IChar. destruct (StartRead_At _ _ H) as [A B]. set (s1 := StartRead s) in *. clearbody s1. rewrite (At_ready _ _ A).
  destruct l as [|c r]; cbn [setdone done fst snd].
  - split; auto. split; auto. left. exact (At_setdone _ _ false A).
  - change (nextch (setdone true s1)) with (nextch s1). rewrite (At_next _ _ _ A). destruct (c =? 10) eqn:E; cbn [fst snd].
    + split; auto. split; auto. right. destruct A as (_ & _ & A). auto.
    + destruct (ReadChar_At _ _ _ (At_setdone _ _ true A)) as [C D]. split; auto. split; [rewrite D; reflexivity|left; auto].
Qed.
Print Assumptions C27_char.

(** A line: its text goes to the array, its end (CR, LF, CR LF, or nothing) is consumed, everything after it remains.  The text is cut
    only when the array is full, and then the rest of the line remains.  After LF nothing beyond the line has been read. *)
Theorem C27_line : forall arr s l, 0 < zlen arr -> Avail s l -> exists s' arr' t eol l', Line arr s = Ok (s', arr') /\
  l = t ++ eol ++ l' /\ Avail s' l' /\ done s' = (match l with [] => false | _ => true end) /\ zlen arr' = zlen arr /\
  (exists junk, arr' = t ++ 0 :: junk) /\ Forall (fun c => c <> 13 /\ c <> 10) t /\
  (eol = [13; 10] \/ eol = [10] \/ (eol = [13] /\ match l' with c :: _ => c <> 10 | [] => True end) \/ (eol = [] /\ (l' = [] \/ zlen t = zlen arr - 1))) /\
  (eol = [10] \/ eol = [13; 10] -> rs s' = pending /\ rest s' = l').
Proof.
  intros arr s l L H. destruct (StartRead_At _ _ H) as [A B]. unfold Line. set (s1 := StartRead s) in *. clearbody s1. clear H B.
  pose proof (At_setdone _ _ (isready s1) A) as A1. rewrite (At_ready _ _ A) in A1 |- *. set (d := match l with [] => false | _ :: _ => true end) in *. set (s2 := setdone d s1) in *.
  assert (D2 : done s2 = d) by reflexivity. clearbody s2. clear A s1.
  destruct (split_line (Z.to_nat (zlen arr - 1)) l) as (t & f & E & F & G & K). rewrite E in A1.
  destruct (line_loop_spec t f (S (length arr)) s2 [] arr A1 F) as (s3 & q & C & D & P & Q).
  - unfold zlen in *. lia.
  - unfold zlen in *. lia.
  - destruct f; auto. unfold zlen in *. lia.
  - cbn [app] in C. rewrite zlen_nil in C. rewrite C, bind_ok. cbv iota beta.
    assert (Lt : zlen t <= zlen arr - 1) by (unfold zlen in *; lia).
    destruct q as [|y q]; [rewrite zlen_nil in Q; lia|]. rewrite setA_at, bind_ok. rewrite zlen_cons in Q.
    assert (LA : zlen (t ++ 0 :: q) = zlen arr) by (rewrite zlen_app, zlen_cons; lia).
    rewrite (At_ready _ _ D). destruct f as [|c f].
    + cbn [andb]. rewrite (At_ready _ _ D). cbn [andb]. exists s3, (t ++ 0 :: q), t, [], []. split; auto. rewrite !app_nil_r in *. split; auto. split; [left; auto|]. split; [congruence|]. split; auto. split; [eauto|]. split; auto.
      split; [right; right; right; auto|]. intros [X|X]; discriminate.
    + rewrite (At_next _ _ _ D). cbn [andb]. destruct (c =? 13) eqn:E13.
      * replace c with 13 in * by lia. destruct (ReadChar_At _ _ _ D) as [R1 R2]. rewrite (At_ready _ _ R1). destruct f as [|e f].
        -- cbn [andb]. exists (ReadChar s3), (t ++ 0 :: q), t, [13], []. split; auto. split; auto. split; [left; auto|]. split; [congruence|]. split; auto. split; [eauto|]. split; auto.
           split; [right; right; left; auto|]. intros [X|X]; discriminate.
        -- cbn [andb]. rewrite (At_next _ _ _ R1). destruct (e =? 10) eqn:E10.
           ++ replace e with 10 in * by lia. exists (setpending (ReadChar s3)), (t ++ 0 :: q), t, [13; 10], f. split; auto. split; auto. destruct R1 as (_ & _ & R1).
              split; [right; auto|]. split; [change (done (setpending (ReadChar s3))) with (done (ReadChar s3)); congruence|]. split; auto. split; [eauto|]. split; auto.
           ++ exists (ReadChar s3), (t ++ 0 :: q), t, [13], (e :: f). split; auto. split; auto. split; [left; auto|]. split; [congruence|]. split; auto. split; [eauto|]. split; auto.
              split; [right; right; left; split; auto; lia|]. intros [X|X]; discriminate.
      * rewrite (At_ready _ _ D), (At_next _ _ _ D). cbn [andb]. destruct (c =? 10) eqn:E10.
        -- replace c with 10 in * by lia. exists (setpending s3), (t ++ 0 :: q), t, [10], f. split; auto. split; auto. destruct D as (_ & _ & D).
           split; [right; auto|]. split; [change (done (setpending s3)) with (done s3); congruence|]. split; auto. split; [eauto|]. split; auto.
        -- exists s3, (t ++ 0 :: q), t, [], (c :: f). split; auto. split; auto. split; [left; auto|]. split; [congruence|]. split; auto. split; [eauto|]. split; auto.
           split; [right; right; right; split; auto; right; unfold zlen in *; lia|]. intros [X|X]; discriminate.
Qed.
Print Assumptions C27_line.

(** A quoted string: whatever the input, a prefix of it is consumed; Done tells whether that prefix was blanks, a quoted string shorter
    than LEN-1 and its quotes, and then the array holds the string. *)
Theorem C27_string : forall arr s l, 0 < zlen arr -> Avail s l -> exists s' arr' p l', IString arr s = Ok (s', arr') /\ l = p ++ l' /\ Avail s' l' /\ zlen arr' = zlen arr /\
  if done s' then exists ws t junk, p = ws ++ 34 :: t ++ [34] /\ all_blank ws /\ Forall (fun c => 32 <= c /\ c <> 34) t /\ zlen t < zlen arr - 1 /\ arr' = t ++ 0 :: junk
  else str_of arr' = [].
Proof.
  intros arr s l L H. destruct (split_blanks l) as (ws & r & El & W & N). unfold IString. rewrite El in H.
  destruct (StartAndSkip_spec ws r s W N H) as (s1 & A & B & _). rewrite A, bind_ok. rewrite (At_ready _ _ B).
  assert (Fail : forall s2 arr2 p l', At s2 l' -> l = p ++ l' -> zlen arr2 = zlen arr -> exists s' arr' p0 l'0,
     (let* str := setA arr2 0 0 in Ok (setdone false s2, str)) = Ok (s', arr') /\ l = p0 ++ l'0 /\ Avail s' l'0 /\ zlen arr' = zlen arr /\
     if done s' then exists ws t junk, p0 = ws ++ 34 :: t ++ [34] /\ all_blank ws /\ Forall (fun c => 32 <= c /\ c <> 34) t /\ zlen t < zlen arr - 1 /\ arr' = t ++ 0 :: junk
     else str_of arr' = []).
  { intros s2 arr2 p l' Q1 Q2 Q3. destruct arr2 as [|y arr2]; [rewrite zlen_nil in Q3; lia|]. pose proof (setA_at [] y arr2 0) as SA. cbn [app] in SA. rewrite zlen_nil in SA. rewrite SA, bind_ok.
    exists (setdone false s2), (0 :: arr2), p, l'. split; auto. split; auto. split; [left; apply At_setdone; auto|]. rewrite zlen_cons in *. split; [lia|]. reflexivity. }
  destruct r as [|c r].
  - cbn [andb]. rewrite bind_ok. cbv iota beta. rewrite (At_ready _ _ B). cbn [andb setdone done]. apply (Fail s1 arr ws []); auto.
  - rewrite (At_next _ _ _ B). cbn [andb]. destruct (c =? 34) eqn:E34.
    + replace c with 34 in * by lia. destruct (ReadChar_At _ _ _ B) as [C _]. set (s2 := ReadChar s1) in *. clearbody s2.
      destruct (split_string (Z.to_nat (zlen arr - 1)) r) as (t & f & E & F & G & K). rewrite E in C.
      destruct (string_loop_spec t f (S (length arr)) s2 [] arr C F) as (s3 & q & C1 & D & P & Q).
      * unfold zlen in *. lia.
      * unfold zlen in *. lia.
      * destruct f; auto. unfold zlen in *. lia.
      * cbn [app] in C1. rewrite zlen_nil in C1. rewrite C1, bind_ok. cbv iota beta.
        assert (LA : zlen (t ++ q) = zlen arr) by (rewrite zlen_app; lia). rewrite LA. rewrite (At_ready _ _ D). destruct f as [|e f].
        -- cbn [andb setdone done]. apply (Fail s3 (t ++ q) l []); auto. rewrite app_nil_r. auto.
        -- rewrite (At_next _ _ _ D). cbn [andb setdone done]. destruct ((zlen t <? zlen arr - 1) && (e =? 34)) eqn:Ok1.
           ++ replace e with 34 in * by lia. destruct q as [|y q]; [rewrite zlen_nil in Q; lia|]. rewrite setA_at, bind_ok.
              destruct (ReadChar_At _ _ _ (At_setdone _ _ true D)) as [R1 R2].
              exists (ReadChar (setdone true s3)), (t ++ 0 :: q), (ws ++ 34 :: t ++ [34]), f. split; auto. split; [rewrite El, E, <- !app_assoc; cbn [app]; rewrite <- app_assoc; reflexivity|].
              split; [left; auto|]. split; [rewrite zlen_app, zlen_cons in *; lia|]. rewrite R2. cbn [setdone done]. exists ws, t, q. repeat split; auto. lia.
           ++ apply (Fail s3 (t ++ q) (ws ++ 34 :: t) (e :: f)); auto. rewrite El, E, <- app_assoc. reflexivity.
    + rewrite bind_ok. cbv iota beta. rewrite (At_ready _ _ B), (At_next _ _ _ B), E34, andb_false_r. cbn [setdone done].
      apply (Fail s1 arr ws (c :: r)); auto.
Qed.
Print Assumptions C27_string.
(** Conversely a quoted string that is short enough is always accepted. *)
Theorem C27_string_accepts : forall arr s ws t l', all_blank ws -> Forall (fun c => 32 <= c /\ c <> 34) t -> zlen t < zlen arr - 1 ->
  Avail s (ws ++ 34 :: t ++ 34 :: l') -> exists s' junk, IString arr s = Ok (s', t ++ 0 :: junk) /\ done s' = true /\ Avail s' l'.
Proof.
  intros arr s ws t l' W F L H. unfold IString.
  destruct (StartAndSkip_spec ws (34 :: t ++ 34 :: l') s W) as (s1 & A & B & _); auto; [lia|]. rewrite A, bind_ok.
  rewrite (At_ready _ _ B), (At_next _ _ _ B). change (34 =? 34) with true. cbn [andb]. destruct (ReadChar_At _ _ _ B) as [C _].
  pose proof (zlen_nonneg _ t).
  destruct (string_loop_spec t (34 :: l') (S (length arr)) (ReadChar s1) [] arr C F) as (s3 & q & C1 & D & P & Q).
  - lia.
  - unfold zlen in *. lia.
  - auto.
  - cbn [app] in C1. rewrite zlen_nil in C1. rewrite C1, bind_ok. cbv iota beta. rewrite zlen_app. replace (zlen t <? zlen t + zlen q - 1) with true by lia.
    rewrite (At_ready _ _ D), (At_next _ _ _ D). cbn [andb setdone done]. change (34 =? 34) with true. cbv iota.
    destruct q as [|y q]; [rewrite zlen_nil in Q; lia|]. rewrite setA_at, bind_ok. destruct (ReadChar_At _ _ _ (At_setdone _ _ true D)) as [R1 R2].
    exists (ReadChar (setdone true s3)), q. split; auto. split; [rewrite R2; reflexivity|left; auto].
Qed.
Print Assumptions C27_string_accepts.

(** Histories of Char and Line calls: the characters and lines delivered, with the line ends, are the input in order. *)
Inductive iop := GChar | GLine (arr : list Z).
Inductive iout := RChar (c : Z) (ok : bool) | RLine (arr : list Z) (ok : bool).
Fixpoint irun (os : list iop) (s : ist) : res (list iout * ist) :=
  match os with
  | [] => Ok ([], s)
  | GChar :: os => let (s, c) := IChar s in let* (rs, s') := irun os s in Ok (RChar c (done s) :: rs, s')
  | GLine arr :: os => let* (s, arr) := Line arr s in let* (rs, s') := irun os s in Ok (RLine arr (done s) :: rs, s')
  end.
(** What a result says about the input consumed. *)
Definition shows (r : iout) (p : list Z) : Prop :=
  match r with
  | RChar c ok => if ok then p = [c] else p = []
  | RLine arr ok => exists t eol, p = t ++ eol /\ (exists junk, arr = t ++ 0 :: junk) /\ Forall (fun c => c <> 13 /\ c <> 10) t /\
      (eol = [] \/ eol = [13] \/ eol = [10] \/ eol = [13; 10]) /\ (ok = false -> p = [])
  end.
Theorem C27_history : forall os input, Forall (fun o => match o with GLine arr => 0 < zlen arr | _ => True end) os ->
  exists rs s ps l, irun os (iinit input) = Ok (rs, s) /\ Forall2 shows rs ps /\ input = concat ps ++ l /\ Avail s l.
Proof.
  intros os input V. pose proof (Avail_init input) as H. revert H. generalize (iinit input) as s. revert input V.
  induction os as [|o os IH]; intros l V s H.
  - exists [], s, [], l. auto.
  - inversion V; subst. destruct o as [|arr]; cbn [irun].
    + pose proof (C27_char s l H) as C. destruct (IChar s) as [s1 c1]. cbn [fst snd] in C. destruct l as [|c l].
      * destruct C as (A & B & D). destruct (IH [] H3 s1 D) as (rs & s2 & ps & l2 & E & F & G & K). rewrite E, bind_ok. cbv iota beta.
        exists (RChar c1 (done s1) :: rs), s2, ([] :: ps), l2. split; auto. split; [constructor; auto; cbn [shows]; rewrite B; auto|]. split; auto.
      * destruct C as (A & B & D). destruct (IH l H3 s1 D) as (rs & s2 & ps & l2 & E & F & G & K). rewrite E, bind_ok. cbv iota beta.
        exists (RChar c1 (done s1) :: rs), s2, ([c] :: ps), l2. split; auto. split; [constructor; auto; cbn [shows]; rewrite B, A; auto|]. split; [cbn [concat app]; congruence|auto].
    + destruct (C27_line arr s l H2 H) as (s1 & arr1 & t & eol & l1 & A & B & C & D & E & F & G & K & _). rewrite A, bind_ok. cbv iota beta.
      destruct (IH l1 H3 s1 C) as (rs & s2 & ps & l2 & P & Q & R & T). rewrite P, bind_ok. cbv iota beta.
      exists (RLine arr1 (done s1) :: rs), s2, ((t ++ eol) :: ps), l2. split; auto. split.
      * constructor; auto. exists t, eol. split; auto. split; auto. split; auto. split; [tauto|]. rewrite D. destruct l; [|discriminate]. intros _. symmetry in B. apply app_eq_nil in B. destruct B as [-> B]. apply app_eq_nil in B. destruct B as [-> _]. reflexivity.
      * split; auto. cbn [concat]. rewrite B, R, <- !app_assoc. reflexivity.
Qed.
Print Assumptions C27_history.

(** The full claim fails for String: when it does not succeed, what it has read is gone. *)
Theorem C27_string_loses_refuted : exists arr input s arr', IString arr (iinit input) = Ok (s, arr') /\ done s = false /\
  str_of arr' = [] /\ input = [34; 97; 98; 10] /\ Avail s [10].
Proof.
  exists (repeat 0 32), [34; 97; 98; 10]. do 2 eexists. split; [vm_compute; reflexivity|]. split; [reflexivity|]. split; [reflexivity|]. split; [reflexivity|]. left. cbn. auto.
Qed.
Print Assumptions C27_string_loses_refuted.
(** A string of exactly LEN-1 characters would fit but is refused. *)
Theorem C27_string_exact_fit_refuted : exists arr s arr', zlen arr = 3 /\ IString arr (iinit [34; 97; 98; 34]) = Ok (s, arr') /\ done s = false.
Proof. exists [0; 0; 0]. do 2 eexists. split; [reflexivity|]. split; [vm_compute; reflexivity|reflexivity]. Qed.
Print Assumptions C27_string_exact_fit_refuted.

Example C26_nonvacuous : is_int_text (-12) [45; 49; 50] /\ number_ends [59] /\
  match HugeInt (chk 64) 0 (iinit [32; 45; 49; 50; 59]) with Ok (s, h) => h = -12 /\ done s = true /\ Avail s [59] | _ => False end.
Proof.
  split.
  - exists [49; 50]. split; [reflexivity|]. split; [|cbn; lia]. change (Z.abs (-12)) with ((0 * 10 + 1) * 10 + 2).
    apply (numeral_snoc 10 [49] _ 50 2); [|reflexivity|lia]. apply (numeral_snoc 10 [] _ 49 1); [constructor|reflexivity|lia].
  - split; [cbn; unfold hexdigit; lia|]. vm_compute. split; [reflexivity|]. split; [reflexivity|]. left. auto.
Qed.
Example C27_nonvacuous : exists rs s, irun [GLine (repeat 0 8); GChar; GLine (repeat 0 2)] (iinit [97; 13; 10; 98; 99; 100; 10]) = Ok (rs, s) /\
  rs = [RLine ([97; 0] ++ repeat 0 6) true; RChar 98 true; RLine [99; 0] true] /\ Avail s [100; 10].
Proof. do 2 eexists. split; [vm_compute; reflexivity|]. split; [reflexivity|]. left. cbn. auto. Qed.
