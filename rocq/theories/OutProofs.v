From Verif Require Import Base ArrZ ArithModel ArithSpec ArithProofs StringsModel StringsProofs OutModel OutSpec.

(** write accepts everything it is offered. *)
Definition full (l : Z) : Z := l.
Definition OInv (s : ost) : Prop := zlen (obuf s) = 128 /\ 0 <= oin s <= 128.
(** Delivered and pending. *)
Definition otext (s : ost) : list Z := delivered s ++ firstn (Z.to_nat (oin s)) (obuf s).

Lemma firstn_full : forall xs : list Z, firstn (Z.to_nat (full (zlen xs))) xs = xs.
Proof. intro xs. unfold full, zlen. rewrite Nat2Z.id. apply firstn_all. Qed.
Lemma zlen_firstn_le : forall (xs : list Z) n, 0 <= n <= zlen xs -> zlen (firstn (Z.to_nat n) xs) = n.
Proof. intros xs n H. unfold zlen in *. rewrite firstn_length. lia. Qed.

Lemma OFlush_spec : forall s, OInv s -> OInv (OFlush full s) /\ otext (OFlush full s) = otext s /\ oin (OFlush full s) = 0 /\
  delivered (OFlush full s) = otext s.
Proof.
  intros s [L B]. unfold OFlush, OInv, otext, PWrite. destruct (oin s >? 0) eqn:E; cbn [obuf oin delivered].
  - rewrite firstn_full. change (firstn (Z.to_nat 0) (obuf s)) with (@nil Z). rewrite app_nil_r. repeat (split; try reflexivity; try lia).
  - replace (oin s) with 0 by lia. change (firstn (Z.to_nat 0) (obuf s)) with (@nil Z). rewrite app_nil_r. repeat (split; try reflexivity; try lia).
Qed.

Lemma firstn_S_set : forall (b : list Z) i c b', 0 <= i -> setA b i c = Ok b' -> firstn (Z.to_nat (i + 1)) b' = firstn (Z.to_nat i) b ++ [c] /\ zlen b' = zlen b.
Proof.
  intros b i c b' Hi H. assert (Hl : i < zlen b).
  { unfold setA in H. destruct (i <? 0) eqn:E; [lia|]. destruct (i <? Z.of_nat (length b)) eqn:E2; [unfold zlen; lia|discriminate]. }
  destruct (nth_split b 0 (n := Z.to_nat i)) as (p & q & E & L); [unfold zlen in Hl; lia|].
  assert (Zi : i = zlen p) by (unfold zlen; lia). rewrite E, Zi, setA_at in H. injection H as <-.
  rewrite E. split.
  - replace (Z.to_nat (i + 1)) with (length (p ++ [c])) by (rewrite app_length; cbn [length]; unfold zlen in *; lia).
    replace (p ++ c :: q) with ((p ++ [c]) ++ q) by (rewrite <- app_assoc; reflexivity). rewrite firstn_app, Nat.sub_diag, firstn_all, firstn_O, app_nil_r.
    replace (Z.to_nat i) with (length p) by (unfold zlen in *; lia). rewrite firstn_app, Nat.sub_diag, firstn_all, firstn_O, app_nil_r. reflexivity.
  - rewrite !zlen_app, !zlen_cons. reflexivity.
Qed.

Lemma OChar_spec : forall c s, OInv s -> exists s', OChar full c s = Ok s' /\ OInv s' /\ otext s' = otext s ++ [c] /\
  (c = 10 -> oin s' = 0).
Proof.
  intros c s I. unfold OChar.
  set (s1 := if oin s >=? 128 then OFlush full s else s).
  assert (H : OInv s1 /\ otext s1 = otext s /\ oin s1 < 128).
  { unfold s1. destruct (OFlush_spec s I) as (A & B & C & D). destruct I as [I1 I2]. destruct (oin s >=? 128) eqn:E.
    - split; auto. split; auto. lia.
    - split; [split; auto|]. split; auto. lia. }
  destruct H as ([L1 B1] & T1 & L). clearbody s1. clear I.
  assert (E : exists b, setA (obuf s1) (oin s1) c = Ok b).
  { destruct (setA (obuf s1) (oin s1) c) eqn:E; eauto; exfalso; unfold setA in E; replace (oin s1 <? 0) with false in E by lia;
    replace (oin s1 <? Z.of_nat (length (obuf s1))) with true in E by (unfold zlen in L1; lia); discriminate. }
  destruct E as (b & E). rewrite E, bind_ok. destruct (firstn_S_set _ _ _ _ (proj1 B1) E) as [F G].
  set (s2 := {| obuf := b; oin := oin s1 + 1; delivered := delivered s1 |}).
  assert (I2 : OInv s2) by (split; cbn [obuf oin s2]; lia).
  assert (T2 : otext s2 = otext s ++ [c]).
  { unfold otext, s2. cbn [obuf oin delivered]. rewrite F, app_assoc. fold (otext s1). rewrite T1. reflexivity. }
  destruct (OFlush_spec s2 I2) as (A & B & C & D).
  destruct (c =? 10) eqn:Ec.
  - exists (OFlush full s2). split; auto. split; auto. split; [congruence|]. auto.
  - exists s2. split; auto. split; auto. split; auto. lia.
Qed.

(** Strings: everything up to the terminator is output, unless the buffer is exactly full and the string is empty. *)
Lemma OString_spec : forall str s, OInv s ->
  match OString full str s with
  | Ok s' => OInv s' /\ otext s' = otext s ++ str_of str
  | Trap t => t = -2 /\ str_of str = [] /\ oin s = 128
  | _ => False
  end.
Proof.
  intros str s I. unfold OString. pose proof (zlen_nonneg _ (str_of str)).
  rewrite length_loop_spec; [|lia|unfold zlen; lia]. rewrite bind_ok. set (l := zlen (str_of str)) in *.
  assert (P : firstn (Z.to_nat l) str = str_of str).
  { clear. unfold l. induction str as [|c str IH]; [reflexivity|]. cbn [str_of]. destruct (c =? 0) eqn:E; [reflexivity|].
    replace (Z.to_nat (zlen (c :: str_of str))) with (S (Z.to_nat (zlen (str_of str)))) by (rewrite zlen_cons; pose proof (zlen_nonneg _ (str_of str)); lia).
    cbn [firstn]. congruence. }
  set (s1 := if oin s + l >? 128 then OFlush full s else s).
  assert (J : OInv s1 /\ otext s1 = otext s /\ (oin s1 + l <= 128 \/ l > 128 /\ oin s1 = 0) /\ (oin s1 = oin s \/ oin s1 = 0)).
  { unfold s1. destruct (OFlush_spec s I) as (A & B & C & D). destruct (oin s + l >? 128) eqn:E.
    - split; auto. split; auto. split; [lia|auto].
    - split; auto. split; auto. split; [lia|auto]. }
  destruct J as ([L1 B1] & T1 & L & Q). clearbody s1.
  destruct (l >? 128) eqn:El.
  - unfold PWrite. split; [split; cbn [obuf oin]; lia|]. unfold otext. cbn [obuf oin delivered].
    rewrite P, firstn_full. destruct L as [L|[_ L]]; [lia|]. unfold otext in T1. rewrite L in *. change (firstn (Z.to_nat 0) (obuf s1)) with (@nil Z) in *.
    rewrite app_nil_r in *. congruence.
  - destruct (Z.eq_dec (oin s1) 128) as [Z1|Z1].
    + rewrite Z1. unfold getA. replace (128 <? 0) with false by reflexivity. replace (128 <? Z.of_nat (length (obuf s1))) with false by (unfold zlen in L1; lia).
      cbn [bind]. split; auto. split; [|lia]. assert (l = 0) by lia. unfold l in *. destruct (str_of str); auto. rewrite zlen_cons in *. pose proof (zlen_nonneg _ l0). lia.
    + rewrite getA_ix by lia. rewrite bind_ok. assert (L' : oin s1 + l <= 128) by lia.
      assert (LF : zlen (firstn (Z.to_nat (oin s1)) (obuf s1)) = oin s1) by (apply zlen_firstn_le; lia).
      split; [split; cbn [obuf oin]|].
      * rewrite !zlen_app, LF, P. fold l. unfold zlen. rewrite skipn_length. unfold zlen in L1. lia.
      * lia.
      * unfold otext. cbn [obuf oin delivered]. rewrite P, app_assoc.
        replace (Z.to_nat (oin s1 + l)) with (length (firstn (Z.to_nat (oin s1)) (obuf s1) ++ str_of str)) at 1.
        -- rewrite firstn_app, Nat.sub_diag, firstn_all, firstn_O, app_nil_r, app_assoc. fold (otext s1). rewrite T1. reflexivity.
        -- rewrite app_length. unfold l, zlen in *. lia.
Qed.

(** * Numerals *)
Lemma numeral_cons : forall base ds v c d, 1 < base -> numeral base ds v -> digval c = Some d -> 0 <= d < base ->
  numeral base (c :: ds) (d * base ^ zlen ds + v).
Proof.
  intros base ds v c d Hb H Hc Hd. induction H as [|ds v e f H IH He Hf].
  - rewrite zlen_nil. replace (d * base ^ 0 + 0) with (0 * base + d) by (rewrite Z.pow_0_r; lia).
    apply (numeral_snoc base [] 0 c d); auto. constructor.
  - replace (zlen (ds ++ [e])) with (zlen ds + 1) by (rewrite zlen_app; reflexivity). rewrite Z.pow_add_r, Z.pow_1_r by (try apply zlen_nonneg; lia).
    replace (d * (base ^ zlen ds * base) + (v * base + f)) with ((d * base ^ zlen ds + v) * base + f) by ring.
    apply (numeral_snoc base (c :: ds)); auto.
Qed.
Lemma numeral_pos : forall base m u, 1 < base -> numeral base m u -> 0 <= u /\ (forall a t, m = a :: t -> a <> 48 -> u > 0).
Proof.
  intros base m u Hb H. induction H as [|m u c d H [I1 I2] Hc Hd]; [split; [lia|intros; discriminate]|]. split; [nia|]. intros a t E N.
  destruct m as [|b m]; cbn [app] in E; inversion E; subst.
  - unfold digval in Hc. destruct ((48 <=? a) && (a <=? 57)) eqn:Q; [inversion Hc; nia|]. destruct ((65 <=? a) && (a <=? 70)) eqn:Q2; [inversion Hc; nia|discriminate].
  - specialize (I2 a m eq_refl N). nia.
Qed.
Lemma numeral_lower : forall base l v, 1 < base -> numeral base l v -> no_leading_zero l -> v > 0 -> base ^ (zlen l - 1) <= v.
Proof.
  intros base l v Hb H. induction H as [|l v c d H IH Hc Hd]; intros NZ P; [contradiction|].
  rewrite zlen_app. change (zlen [c]) with 1. replace (zlen l + 1 - 1) with (zlen l) by lia.
  destruct l as [|a l]; [cbn [app] in NZ; rewrite zlen_nil, Z.pow_0_r; lia|].
  assert (NZ' : no_leading_zero (a :: l)) by (destruct l; [exact I|exact NZ]).
  assert (a <> 48) by (destruct l; exact NZ).
  assert (VP : v > 0) by (apply (proj2 (numeral_pos _ _ _ Hb H)) with (a := a) (t := l); auto).
  specialize (IH NZ' VP). rewrite zlen_cons in *. replace (1 + zlen l - 1) with (zlen l) in IH by lia. pose proof (zlen_nonneg _ l).
  rewrite Z.pow_add_r, Z.pow_1_r by lia. nia.
Qed.
Lemma digval_dec : forall d, 0 <= d < 10 -> digval (48 + d) = Some d.
Proof. intros d H. unfold digval. replace (48 <=? 48 + d) with true by lia. replace (48 + d <=? 57) with true by lia. cbn [andb]. f_equal. lia. Qed.
Lemma MOD10 : forall x, 0 <= x < 2 ^ 63 -> MOD_inline 64 x 10 = Ok (x mod 10).
Proof.
  intros x H. unfold MOD_inline. destruct (x >? 0) eqn:E; cbn [Z.gtb Z.compare andb].
  - change (10 >? 0) with true. cbn [andb]. unfold c_rem. cbn [Z.eqb]. change (2 ^ 63) with 9223372036854775808 in *.
    rewrite <- rem_floor by lia. unfold chk. rewrite Z.quot_div_nonneg by lia. unfold in_intb, min_int, max_int. change (2 ^ (64 - 1)) with 9223372036854775808.
    replace (- (9223372036854775808) <=? x / 10) with true by lia. replace (x / 10 <? 9223372036854775808) with true by lia. reflexivity.
  - replace x with 0 by lia. reflexivity.
Qed.
Lemma DIV10 : forall x, 0 <= x < 2 ^ 63 -> DIV_inline 64 x 10 = Ok (x / 10).
Proof.
  intros x H. unfold DIV_inline. destruct (x >? 0) eqn:E.
  - change (10 >? 0) with true. cbn [andb]. unfold c_div. cbn [Z.eqb]. change (2 ^ 63) with 9223372036854775808 in *.
    rewrite quot_floor by lia. unfold chk. unfold in_intb, min_int, max_int. change (2 ^ (64 - 1)) with 9223372036854775808.
    replace (- (9223372036854775808) <=? x / 10) with true by lia. replace (x / 10 <? 9223372036854775808) with true by lia. reflexivity.
  - replace x with 0 by lia. reflexivity.
Qed.

(** The digit loop: the array holds the digits, least significant first. *)
Lemma int_digits_spec : forall fuel x p q, 0 <= x < 2 ^ 63 -> x < 10 ^ (Z.of_nat fuel - 1) -> Z.of_nat fuel - 1 <= zlen q -> (0 < fuel)%nat ->
  exists ds q', int_digits fuel x (p ++ q) (zlen p) = Ok ((p ++ ds) ++ q', zlen (p ++ ds)) /\ zlen q = zlen ds + zlen q' /\
    numeral 10 (rev ds) x /\ (x = 0 /\ ds = [] \/ exists l d, ds = l ++ [d] /\ d <> 48).
Proof.
  induction fuel as [|fuel IH]; intros x p q Hx Hf Hq F; [lia|]. cbn [int_digits]. destruct (x =? 0) eqn:E.
  - exists [], q. rewrite !app_nil_r. replace x with 0 by lia. split; [reflexivity|]. split; [reflexivity|]. split; [constructor|]. left. auto.
  - replace (Z.of_nat (S fuel) - 1) with (Z.of_nat fuel) in * by lia.
    destruct fuel as [|fuel]; [change (10 ^ Z.of_nat 0) with 1 in Hf; lia|].
    replace (10 ^ Z.of_nat (S fuel)) with (10 * 10 ^ (Z.of_nat (S fuel) - 1)) in Hf.
    2:{ rewrite <- Z.pow_succ_r by lia. f_equal. lia. }
    rewrite MOD10 by auto. rewrite bind_ok. rewrite CHR_inline_nonneg by lia. replace (48 + x mod 10 <? 256) with true by lia. rewrite bind_ok.
    destruct q as [|y q]; [rewrite zlen_nil in Hq; lia|]. rewrite zlen_cons in Hq. rewrite setA_at, bind_ok, DIV10, bind_ok by auto.
    destruct (IH (x / 10) (p ++ [48 + x mod 10]) q) as (ds & q' & A & B & C & D); try lia.
    exists ((48 + x mod 10) :: ds), q'. split.
    { replace (p ++ (48 + x mod 10) :: q) with ((p ++ [48 + x mod 10]) ++ q) by (rewrite <- app_assoc; reflexivity).
      replace (zlen p + 1) with (zlen (p ++ [48 + x mod 10])) by (rewrite zlen_app; reflexivity). rewrite A, <- !app_assoc. reflexivity. }
    split; [rewrite !zlen_cons; lia|]. split.
    { cbn [rev]. replace x with (x / 10 * 10 + x mod 10) at 2 by lia. apply numeral_snoc; auto; [apply digval_dec|]; lia. }
    right. destruct D as [(D1 & ->)|(l & d & -> & D2)].
    + exists [], (48 + x mod 10). split; [reflexivity|]. lia.
    + exists ((48 + x mod 10) :: l), d. auto.
Qed.

Lemma blanks_spec : forall k fuel n i s, OInv s -> Z.to_nat (n - i) = k -> (k < fuel)%nat ->
  exists s', blanks fuel full n i s = Ok s' /\ OInv s' /\ otext s' = otext s ++ repeat 32 k.
Proof.
  induction k as [|k IH]; intros fuel n i s I K F; (destruct fuel as [|fuel]; [lia|]); cbn [blanks].
  - replace (n >? i) with false by lia. exists s. rewrite app_nil_r. auto.
  - replace (n >? i) with true by lia. destruct (OChar_spec 32 s I) as (s1 & A & B & C & _). rewrite A, bind_ok.
    destruct (IH fuel (n - 1) i s1 B) as (s2 & D & E & G); [lia|lia|]. exists s2. split; auto. split; auto.
    rewrite G, C, <- app_assoc. reflexivity.
Qed.
Lemma emit_down_spec : forall p fuel q s, OInv s -> (length p < fuel)%nat ->
  exists s', emit_down fuel full (p ++ q) (zlen p) s = Ok s' /\ OInv s' /\ otext s' = otext s ++ rev p.
Proof.
  induction p as [|c p IH] using rev_ind; intros fuel q s I F; (destruct fuel as [|fuel]; [lia|]); cbn [emit_down].
  - exists s. rewrite app_nil_r. auto.
  - rewrite zlen_app. change (zlen [c]) with 1. pose proof (zlen_nonneg _ p). replace (zlen p + 1 >? 0) with true by lia.
    replace (zlen p + 1 - 1) with (zlen p) by lia. rewrite <- app_assoc. cbn [app]. rewrite getA_at, bind_ok.
    destruct (OChar_spec c s I) as (s1 & A & B & C & _). rewrite A, bind_ok.
    destruct (IH fuel (c :: q) s1 B) as (s2 & D & E & G); [rewrite app_length in F; cbn [length] in F; lia|].
    exists s2. split; auto. split; auto. rewrite G, C, rev_app_distr, <- app_assoc. reflexivity.
Qed.

Lemma OInt_spec : forall b x n s, OInv s -> zlen b = 22 -> in_int 64 x ->
  exists s' t, OInt full b x n s = Ok s' /\ OInv s' /\ is_int_text x t /\ otext s' = otext s ++ padded n t.
Proof.
  intros b x n s I Lb Hx. unfold OInt. rewrite in_int64 in Hx.
  (* the digits *)
  assert (H : exists ds q, (if x =? - 2 ^ 63 then Ok (min_digits ++ 0 :: skipn 20 b, 19)
                  else let* x := (if x <? 0 then chk 64 (- x) else Ok x) in
                    let* d := MOD_inline 64 x 10 in let* c := CHR_inline (48 + d) in let* b := setA b 0 c in
                    let* x := DIV_inline 64 x 10 in int_digits 20 x b 1) = Ok (ds ++ q, zlen ds) /\ zlen ds + zlen q = 22 /\ 0 < zlen q /\
             numeral 10 (rev ds) (Z.abs x) /\ no_leading_zero (rev ds)).
  { destruct (x =? - 2 ^ 63) eqn:Em.
    - exists min_digits, (0 :: skipn 20 b). split; [reflexivity|]. assert (L : zlen (skipn 20 b) = 2) by (unfold zlen in *; rewrite skipn_length; lia).
      rewrite zlen_cons. change (zlen min_digits) with 19. split; [lia|]. split; [lia|].
      replace x with (- 2 ^ 63) by lia. split; [|cbn; lia].
      set (r := rev min_digits). vm_compute in r. change (Z.abs (- 2 ^ 63)) with 9223372036854775808. unfold r. clear r.
      assert (N : forall l v c d w, numeral 10 l v -> digval c = Some d -> 0 <= d < 10 -> w = v * 10 + d -> numeral 10 (l ++ [c]) w)
        by (intros; subst; apply numeral_snoc; auto).
      assert (NR : forall k w, 0 <= w -> w < 10 ^ Z.of_nat k -> forall l, (l = (fix f (k : nat) (w : Z) := match k with O => [] | S k => f k (w / 10) ++ [48 + w mod 10] end) k w) -> numeral 10 l w).
      { clear. induction k as [|k IH]; intros w H0 H1 l ->.
        - change (10 ^ Z.of_nat 0) with 1 in H1. replace w with 0 by lia. constructor.
        - replace (10 ^ Z.of_nat (S k)) with (10 * 10 ^ Z.of_nat k) in H1 by (rewrite Nat2Z.inj_succ, Z.pow_succ_r by lia; reflexivity).
          replace w with (w / 10 * 10 + w mod 10) at 3 by lia. apply numeral_snoc; [apply IH; auto; lia|apply digval_dec; lia|lia]. }
      apply (NR 19%nat); [lia|reflexivity|vm_compute; reflexivity].
    - assert (A : (if x <? 0 then chk 64 (- x) else Ok x) = Ok (Z.abs x)).
      { change (2 ^ 63) with 9223372036854775808 in *. destruct (x <? 0) eqn:E.
        - unfold chk, in_intb, min_int, max_int. change (2 ^ (64 - 1)) with 9223372036854775808.
          replace (- (9223372036854775808) <=? - x) with true by lia. replace (- x <? 9223372036854775808) with true by lia. cbn [andb]. f_equal. lia.
        - f_equal. lia. }
      rewrite A, bind_ok. set (y := Z.abs x). assert (Hy : 0 <= y < 2 ^ 63) by (unfold y; change (2 ^ 63) with 9223372036854775808 in *; lia). clearbody y. clear A.
      rewrite MOD10, bind_ok by auto. rewrite CHR_inline_nonneg by lia. replace (48 + y mod 10 <? 256) with true by lia. rewrite bind_ok.
      destruct b as [|b0 b]; [discriminate|]. rewrite zlen_cons in Lb. pose proof (setA_at [] b0 b (48 + y mod 10)) as SA. cbn [app] in SA. rewrite zlen_nil in SA.
      rewrite SA, bind_ok, DIV10, bind_ok by auto.
      destruct (int_digits_spec 20 (y / 10) [48 + y mod 10] b) as (ds & q & A & B & C & D).
      + change (2 ^ 63) with 9223372036854775808 in *. lia.
      + change (2 ^ 63) with 9223372036854775808 in *. change (10 ^ (Z.of_nat 20 - 1)) with 10000000000000000000. lia.
      + lia.
      + lia.
      + change (zlen [48 + y mod 10]) with 1 in A. cbn [app] in A. rewrite A. exists ((48 + y mod 10) :: ds), q.
        assert (LD : zlen ds <= 18).
        { destruct D as [(D1 & ->)|(l & d & -> & D2)]; [rewrite zlen_nil; lia|].
          rewrite rev_app_distr in C. cbn [rev app] in C.
          destruct (Z.eq_dec (y / 10) 0) as [Y0|Y0].
          - pose proof (proj2 (numeral_pos 10 _ _ ltac:(lia) C) d (rev l) eq_refl D2). lia.
          - assert (NZ : no_leading_zero (d :: rev l)) by (cbn; destruct (rev l); auto).
            pose proof (numeral_lower 10 _ _ ltac:(lia) C NZ ltac:(lia)) as P.
            rewrite zlen_cons in P. replace (zlen (rev l)) with (zlen l) in P by (unfold zlen; rewrite rev_length; reflexivity).
            rewrite zlen_app. change (zlen [d]) with 1. destruct (Z_lt_le_dec 17 (zlen l)) as [Q|Q]; [|lia]. exfalso.
            assert (10 ^ 18 <= 10 ^ (1 + zlen l - 1)) by (apply Z.pow_le_mono_r; lia). change (10 ^ 18) with 1000000000000000000 in *.
            change (2 ^ 63) with 9223372036854775808 in *. lia. }
        split; [reflexivity|]. rewrite zlen_cons. split; [lia|]. split; [lia|]. split.
        { cbn [rev]. replace y with (y / 10 * 10 + y mod 10) at 2 by lia. apply numeral_snoc; auto; [apply digval_dec|]; lia. }
        destruct D as [(D1 & ->)|(l & d & -> & D2)]; [exact Logic.I|]. cbn [rev]. rewrite rev_app_distr. cbn [rev app no_leading_zero].
        destruct (rev l ++ [48 + y mod 10]); auto. }
  destruct H as (ds & q & A & B & C & D & E). rewrite A, bind_ok. cbv iota beta. clear A.
  assert (H : exists q', (if x <? 0 then let* b := setA (ds ++ q) (zlen ds) 45 in Ok (b, zlen ds + 1) else Ok (ds ++ q, zlen ds)) =
     Ok ((ds ++ if x <? 0 then [45] else []) ++ q', zlen (ds ++ if x <? 0 then [45] else []))).
  { destruct (x <? 0).
    - destruct q as [|y q]; [rewrite zlen_nil in C; lia|]. rewrite setA_at, bind_ok. exists q. rewrite zlen_app, <- app_assoc. reflexivity.
    - exists q. rewrite !app_nil_r. reflexivity. }
  destruct H as (q' & ->). rewrite bind_ok. cbv iota beta. set (p := ds ++ if x <? 0 then [45] else []).
  destruct (blanks_spec (Z.to_nat (n - zlen p)) (S (Z.to_nat n)) n (zlen p) s I eq_refl) as (s1 & A1 & I1 & T1); [pose proof (zlen_nonneg _ p); lia|].
  rewrite A1, bind_ok. destruct (emit_down_spec p (S (length (p ++ q'))) q' s1 I1) as (s2 & A2 & I2 & T2); [rewrite app_length; lia|].
  exists s2, (rev p). split; auto. split; auto. split.
  - exists (rev ds). split; [|auto]. unfold p. rewrite rev_app_distr. destruct (x <? 0); reflexivity.
  - rewrite T2, T1, <- app_assoc. unfold padded. replace (zlen (rev p)) with (zlen p) by (unfold zlen; rewrite rev_length; reflexivity). reflexivity.
Qed.
