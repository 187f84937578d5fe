(** C33: numbers written to a text are scanned back. *)
From Verif Require Import Base ArrZ ArithModel ArithSpec ArithProofs OutModel OutSpec OutProofs OutProps DateModel TextNumModel.
From Verif Require DateProps.

(** What may follow a decimal number: the end of the text, or a character that is not a digit, a letter A to F, the H of hexadecimal numbers or a point. *)
Definition ends_decimal (f : list Z) : Prop :=
  match f with [] => True | c :: _ => c < 48 /\ c <> 46 \/ 57 < c /\ ~ 65 <= c <= 70 /\ ~ 97 <= c <= 102 /\ c <> 72 end.
(** The state of a scanner that is about to read l: nothing was read yet, or its first character is already in nextCh. *)
Definition at_text (nextCh : Z) (r l : list Z) : Prop := nextCh = 32 /\ r = l \/ (nextCh, r) = Read l.

(** * Writing *)
Lemma rep_digits_spec : forall x a, 0 <= x < 2 ^ 63 -> zlen a = 24 -> exists ds q, rep_digits 20 x a 0 = Ok (ds ++ q, zlen ds) /\ 0 < zlen ds <= 24 /\ numeral 10 (rev ds) x /\ no_leading_zero (rev ds).
Proof.
  assert (G : forall f x p q, 0 <= x < 2 ^ 63 -> x < 10 ^ Z.of_nat f -> Z.of_nat f <= zlen q -> (0 < f)%nat ->
    exists ds q', rep_digits f x (p ++ q) (zlen p) = Ok ((p ++ ds) ++ q', zlen (p ++ ds)) /\ zlen q = zlen ds + zlen q' /\ 0 < zlen ds /\ numeral 10 (rev ds) x /\ (x = 0 /\ ds = [48] \/ exists l d, ds = l ++ [d] /\ d <> 48)).
  { induction f as [|f IH]; intros x p q Hx Hf Hq F; [lia|]. cbn [rep_digits]. rewrite MOD10 by auto. rewrite bind_ok. rewrite CHR_inline_nonneg by lia. replace (48 + x mod 10 <? 256) with true by lia. rewrite bind_ok.
    destruct q as [|y q]; [rewrite zlen_nil in Hq; lia|]. rewrite zlen_cons in Hq. rewrite setA_at, bind_ok, DIV10, bind_ok by auto. destruct (x / 10 =? 0) eqn:E.
    - exists [48 + x mod 10], q. replace ((p ++ [48 + x mod 10]) ++ q) with (p ++ (48 + x mod 10) :: q) by (rewrite <- app_assoc; auto). rewrite zlen_app. split; [auto|]. split; [rewrite zlen_cons; auto|]. split; [cbn; lia|]. split.
      + cbn [rev app]. replace x with (0 * 10 + x mod 10) at 2 by lia. apply (numeral_snoc 10 [] 0); [constructor|apply digval_dec; lia|lia].
      + destruct (Z.eq_dec x 0) as [->|]; [left; auto|right]. exists [], (48 + x mod 10). split; auto. lia.
    - assert (0 < f)%nat. { destruct f; [|lia]. change (10 ^ Z.of_nat 1) with 10 in Hf. lia. }
      replace (10 ^ Z.of_nat (S f)) with (10 * 10 ^ Z.of_nat f) in Hf by (rewrite <- Z.pow_succ_r by lia; f_equal; lia).
      destruct (IH (x / 10) (p ++ [48 + x mod 10]) q) as (ds & q' & A & B & B2 & C & D); try lia.
      exists ((48 + x mod 10) :: ds), q'. split.
      { replace (p ++ (48 + x mod 10) :: q) with ((p ++ [48 + x mod 10]) ++ q) by (rewrite <- app_assoc; reflexivity).
        replace (zlen p + 1) with (zlen (p ++ [48 + x mod 10])) by (rewrite zlen_app; reflexivity). rewrite A, <- !app_assoc. reflexivity. }
      split; [rewrite !zlen_cons; lia|]. split; [rewrite zlen_cons; lia|]. split.
      { cbn [rev]. replace x with (x / 10 * 10 + x mod 10) at 2 by lia. apply numeral_snoc; auto; [apply digval_dec|]; lia. }
      right. destruct D as [(D1 & ->)|(l & d & -> & D2)]; [rewrite D1 in E; discriminate|]. exists ((48 + x mod 10) :: l), d. auto. }
  intros x a Hx La. destruct (G 20%nat x [] a) as (ds & q & A & B & B2 & C & D); auto; try lia.
  cbn [app] in A. exists ds, q. split; auto. pose proof (zlen_nonneg _ q). split; [lia|]. split; auto. destruct D as [(D1 & ->)|(l & d & -> & D2)]; [exact I|]. rewrite rev_app_distr. cbn. destruct (rev l); auto.
Qed.
Lemma write_down_spec : forall p fuel q w, (0 < length p < fuel)%nat -> write_down fuel (p ++ q) (zlen p) w = Ok (w ++ rev p).
Proof.
  induction p as [|c p IH] using rev_ind; intros fuel q w F; [cbn in F; lia|]. destruct fuel as [|fuel]; [lia|]. cbn [write_down].
  rewrite zlen_app. change (zlen [c]) with 1. replace (zlen p + 1 - 1) with (zlen p) by lia. rewrite <- app_assoc. cbn [app]. rewrite getA_at, bind_ok, rev_app_distr. cbn [rev app]. destruct p as [|a p]; [reflexivity|].
  rewrite zlen_cons. pose proof (zlen_nonneg _ p). replace (1 + zlen p =? 0) with false by lia. rewrite app_length in F. cbn [length] in F. rewrite <- zlen_cons with (x := a). rewrite IH by (cbn [length]; lia). rewrite <- app_assoc. reflexivity.
Qed.
(** WriteInt appends the number, right-adjusted in a field of n characters. *)
Theorem C33_write_int : forall a x n, zlen a = 24 -> in_int 64 x -> x <> - 2 ^ 63 -> in_int 64 n -> n <> - 2 ^ 63 -> exists t, is_int_text x t /\ forall w, WriteInt a x n w = Ok (w ++ padded n t).
Proof.
  intros a x n La Hx Nx Hn Nn. rewrite in_int64 in *. change (2 ^ 63) with 9223372036854775808 in *.
  assert (N1 : (if x <? 0 then chk 64 (n - 1) else Ok n) = Ok (if x <? 0 then n - 1 else n)) by (destruct (x <? 0); auto; apply DateProps.chk_in; rewrite in_int64; change (2 ^ 63) with 9223372036854775808; lia).
  assert (N2 : (if x <? 0 then chk 64 (- x) else Ok x) = Ok (Z.abs x)) by (destruct (x <? 0) eqn:E; [rewrite DateProps.chk_in; [f_equal; lia|rewrite in_int64; change (2 ^ 63) with 9223372036854775808; lia]|f_equal; lia]).
  destruct (rep_digits_spec (Z.abs x) a) as (ds & q & A & B & C & D); [change (2 ^ 63) with 9223372036854775808; lia|auto|].
  exists ((if x <? 0 then [45] else []) ++ rev ds). split; [exists (rev ds); auto|]. intro w. unfold WriteInt. change (2 ^ 63) with 9223372036854775808. replace (x =? - (9223372036854775808)) with false by lia. rewrite N1, bind_ok, N2, bind_ok, A, bind_ok. rewrite write_down_spec by (unfold zlen in B; lia). f_equal. unfold padded, wblanks. rewrite zlen_app. replace (zlen (rev ds)) with (zlen ds) by (unfold zlen; rewrite rev_length; auto).
  destruct (x <? 0); cbn [app]; [change (zlen [45]) with 1|change (zlen (@nil Z)) with 0]; rewrite <- ?app_assoc; cbn [app]; [replace (n - 1 - zlen ds) with (n - (1 + zlen ds)) by lia|replace (n - zlen ds) with (n - (0 + zlen ds)) by lia]; reflexivity.
Qed.

(** * Scanning *)
Lemma skip_blanks : forall k c l, c <> 32 -> c <> 13 -> c <> 9 -> skip 32 (repeat 32 k ++ c :: l) = (c, l).
Proof. induction k as [|k IH]; intros c l A B C; cbn [repeat app skip]; [|cbn [Z.eqb Pos.eqb orb]; apply IH; auto]. cbn [Z.eqb Pos.eqb orb]. destruct l; cbn [skip]; replace (c =? 13) with false by lia; replace (c =? 32) with false by lia; replace (c =? 9) with false by lia; reflexivity. Qed.
Lemma skip_at : forall nx r k c l, at_text nx r (repeat 32 k ++ c :: l) -> c <> 32 -> c <> 13 -> c <> 9 -> skip nx r = (c, l).
Proof.
  intros nx r k c l [[-> ->]|H] A B C; [apply skip_blanks; auto|]. destruct k; cbn [repeat app Read] in H; inversion H; subst; [|apply skip_blanks; auto].
  destruct l; cbn [skip]; replace (c =? 13) with false by lia; replace (c =? 32) with false by lia; replace (c =? 9) with false by lia; reflexivity.
Qed.
Definition conv (c : Z) : Z := if 57 <? c then c - 7 else c.
Lemma conv_digval : forall c d, digval c = Some d -> conv c = 48 + d /\ 0 <= d < 16 /\ (c <= 57 -> 48 <= c /\ d < 10) /\ (57 < c -> 65 <= c <= 70).
Proof. intros c d H. unfold digval in H. unfold conv. destruct ((48 <=? c) && (c <=? 57)) eqn:E; [inversion H; replace (57 <? c) with false by lia; lia|]. destruct ((65 <=? c) && (c <=? 70)) eqn:E2; [inversion H; replace (57 <? c) with true by lia; lia|discriminate]. Qed.
Definition stops (f : list Z) : Prop := match f with [] => True | c :: _ => c < 48 \/ 57 < c /\ ~ 65 <= c <= 70 /\ ~ 97 <= c <= 102 end.
Lemma num_loop_spec : forall ds ch f hex d, Forall (fun c => exists v, digval c = Some v) ds -> stops f -> (length d + length ds < 32)%nat ->
  num_loop ch (ds ++ f) hex d = Ok (d ++ ch :: map conv ds, hex || existsb (fun c => 57 <? c) ds, fst (Read f), snd (Read f)).
Proof.
  induction ds as [|c ds IH]; intros ch f hex d F S L; cbn [app map existsb].
  - rewrite orb_false_r. destruct f as [|e f]; cbn [num_loop Read fst snd]; cbn [length] in L; replace (Z.of_nat (length d) >=? 32) with false by lia; auto. cbn [stops] in S. destruct (e <? 48) eqn:E; auto. replace (57 <? e) with true by lia. replace ((65 <=? e) && (e <=? 70)) with false by lia. replace ((97 <=? e) && (e <=? 102)) with false by lia. reflexivity.
  - inversion F as [|? ? (v & V) F2]; subst. cbn [length] in L. cbn [num_loop]. replace (Z.of_nat (length d) >=? 32) with false by lia. destruct (conv_digval c v V) as (V1 & V2 & V3 & V4). destruct (57 <? c) eqn:E.
    + replace (c <? 48) with false by lia. replace ((65 <=? c) && (c <=? 70)) with true by lia. rewrite IH by (auto; rewrite app_length; cbn [length]; lia). rewrite <- app_assoc. cbn [app orb]. unfold conv at 2. rewrite E. rewrite orb_true_r. reflexivity.
    + replace (c <? 48) with false by lia. rewrite IH by (auto; rewrite app_length; cbn [length]; lia). rewrite <- app_assoc. cbn [app orb]. unfold conv at 2. rewrite E. reflexivity.
Qed.
Lemma dec_val_app : forall a b k, dec_val (a ++ b) k = let* k := dec_val a k in dec_val b k.
Proof. induction a as [|c a IH]; intros b k; cbn [app dec_val]; auto. destruct (chk 32 (k * 10)); cbn [bind]; auto. destruct (chk 32 (a0 + (c - 48))); cbn [bind]; auto. Qed.
Lemma dec_val_spec : forall ds v, numeral 10 ds v -> v < 2 ^ 31 -> dec_val (map conv ds) 0 = Ok v.
Proof.
  intros ds v H. induction H as [|ds v c d H IH Hc Hd]; intro B; auto. destruct (numeral_pos 10 ds v ltac:(lia) H) as [P _]. change (2 ^ 31) with 2147483648 in *. rewrite map_app, dec_val_app, IH, bind_ok by lia. cbn [map dec_val]. destruct (conv_digval c d Hc) as [-> _].
  rewrite !DateProps.chk_in by (unfold in_int; change (2 ^ (32 - 1)) with 2147483648; lia). cbn [bind]. rewrite DateProps.chk_in by (unfold in_int; change (2 ^ (32 - 1)) with 2147483648; lia). cbn [bind]. f_equal. lia.
Qed.
Lemma numeral_digits : forall base ds v, numeral base ds v -> Forall (fun c => exists v, digval c = Some v) ds.
Proof. intros base ds v H. induction H; [constructor|]. apply Forall_app. split; auto. constructor; auto. exists d; auto. Qed.
Lemma numeral_dec : forall ds v, numeral 10 ds v -> Forall (fun c => 48 <= c <= 57) ds.
Proof. intros ds v H. apply (numeral_chars 10 ds v); auto. lia. Qed.
Lemma len_bound : forall ds v, numeral 10 ds v -> no_leading_zero ds -> v < 2 ^ 31 -> (0 < length ds <= 10)%nat.
Proof.
  intros ds v H N B. destruct ds as [|c ds]; [contradiction|]. destruct (Z.eq_dec v 0) as [E|E].
  - destruct ds as [|e ds]; [cbn; lia|]. pose proof (proj2 (numeral_pos 10 _ _ ltac:(lia) H) c (e :: ds) eq_refl N). lia.
  - pose proof (proj1 (numeral_pos 10 _ _ ltac:(lia) H)). pose proof (numeral_lower 10 _ _ ltac:(lia) H N ltac:(lia)). split; [cbn; lia|]. destruct (Nat.le_gt_cases (length (c :: ds)) 10); auto. exfalso.
    assert (10 ^ 10 <= 10 ^ (zlen (c :: ds) - 1)) by (apply Z.pow_le_mono_r; unfold zlen; lia). change (10 ^ 10) with 10000000000 in *. change (2 ^ 31) with 2147483648 in *. lia.
Qed.
Lemma scan_int : forall x t k f nx r, in_int 32 x -> x <> - 2 ^ 31 -> is_int_text x t -> ends_decimal f -> at_text nx r (repeat 32 k ++ t ++ f) -> Scan nx r = Ok (SInt x, fst (Read f), snd (Read f)).
Proof.
  intros x t k f nx r Hx Nx (ds & -> & N & NZ) E A. unfold in_int in Hx. change (2 ^ (32 - 1)) with 2147483648 in Hx. change (2 ^ 31) with 2147483648 in Nx.
  pose proof (len_bound ds _ N NZ ltac:(change (2 ^ 31) with 2147483648; lia)) as L. destruct ds as [|c ds]; [cbn in L; lia|]. pose proof (numeral_dec _ _ N) as DD. inversion DD as [|? ? Dc Dd]; subst.
  pose proof (numeral_digits _ _ _ N) as DV. inversion DV as [|? ? Vc Vd]; subst.
  assert (ST : stops f) by (destruct f as [|e f]; auto; cbn [ends_decimal stops] in *; lia).
  assert (EX : existsb (fun c => 57 <? c) ds = false) by (clear - Dd; induction Dd; auto; cbn [existsb]; rewrite IHDd; replace (57 <? x) with false by lia; auto).
  assert (NH : fst (Read f) <> 72 /\ fst (Read f) <> 46) by (destruct f as [|e f]; cbn [Read fst ends_decimal] in *; lia).
  assert (FIN : forall neg, (neg = true <-> x < 0) -> (let* r := num_loop c (ds ++ f) false [] in let '(d, hex, ch, l) := r in
      if ch =? 72 then let '(ch, l) := Read l in let d := if Z.of_nat (length d) >? 8 then skipn (length d - 8) d else d in
        match d with [] => UB | c :: d' => let k := c - 48 in let k := if (Z.of_nat (length d') =? 7) && (k >=? 8) then k - 16 else k in let* k := hex_val d' k in let* i := negate neg k in Ok (SInt i, ch, l) end
      else if ch =? 46 then Ok (SReal, ch, l) else let* k := dec_val d 0 in let* i := negate neg k in Ok (if hex then SInval else SInt i, ch, l)) = Ok (SInt x, fst (Read f), snd (Read f))).
  { intros neg Hneg. rewrite num_loop_spec by (auto; cbn [length] in *; lia). rewrite bind_ok. rewrite EX. cbn [orb app]. replace (fst (Read f) =? 72) with false by lia. replace (fst (Read f) =? 46) with false by lia.
    replace (c :: map conv ds) with (map conv (c :: ds)) by (cbn [map]; unfold conv at 1; replace (57 <? c) with false by lia; auto). rewrite (dec_val_spec _ _ N) by (change (2 ^ 31) with 2147483648; lia). rewrite bind_ok. unfold negate. destruct neg.
    - assert (x < 0) by (apply Hneg; auto). rewrite DateProps.chk_in by (unfold in_int; change (2 ^ (32 - 1)) with 2147483648; lia). rewrite bind_ok. repeat f_equal; lia.
    - assert (~ x < 0) by (intro X; apply Hneg in X; discriminate). rewrite bind_ok. repeat f_equal. lia. }
  unfold Scan. destruct (x <? 0) eqn:S; cbn [app] in A.
  - rewrite (skip_at _ _ _ _ _ A) by lia. change (isletter 45) with false. cbn [Z.eqb Pos.eqb orb Read]. replace ((48 <=? c) && (c <=? 57)) with true by lia. apply (FIN true). lia.
  - rewrite (skip_at _ _ _ _ _ A) by lia. assert (IL : isletter c = false). { assert (c = 48 \/ c = 49 \/ c = 50 \/ c = 51 \/ c = 52 \/ c = 53 \/ c = 54 \/ c = 55 \/ c = 56 \/ c = 57) as Q by lia. repeat (destruct Q as [->|Q]; [reflexivity|]). subst; reflexivity. }
    rewrite IL. replace (c =? 47) with false by lia. replace (c =? 46) with false by lia. replace (c =? 34) with false by lia. replace (c =? 45) with false by lia. cbn [orb]. replace ((48 <=? c) && (c <=? 57)) with true by lia. apply (FIN false). lia.
Qed.
(** What WriteInt writes is scanned back as the same integer, whatever the field width, and the scanner stands at the following text. *)
Theorem C33_int_roundtrip : forall a x n, zlen a = 24 -> in_int 32 x -> x <> - 2 ^ 31 -> in_int 64 n -> n <> - 2 ^ 63 ->
  exists t, (forall w, WriteInt a x n w = Ok (w ++ t)) /\ forall f nx r, ends_decimal f -> at_text nx r (t ++ f) -> Scan nx r = Ok (SInt x, fst (Read f), snd (Read f)).
Proof.
  intros a x n La Hx Nx Hn Nn. destruct (C33_write_int a x n La) as (t & T1 & T2); auto; [apply (in_int_mono 32 64); auto; lia|unfold in_int in Hx; change (2 ^ (32 - 1)) with 2147483648 in Hx; change (2 ^ 63) with 9223372036854775808; lia|].
  exists (padded n t). split; auto. intros f nx r E A. unfold padded in A. rewrite <- app_assoc in A. eapply scan_int; eauto.
Qed.
(** A whole list of integers, each preceded by a blank and written in a field of any width, is scanned back. *)
Fixpoint write_all (a : list Z) (xs : list (Z * Z)) (w : list Z) : res (list Z) := match xs with [] => Ok w | (x, n) :: xs => let* w := WriteInt a x n (w ++ [32]) in write_all a xs w end.
Fixpoint scan_all (k : nat) (nx : Z) (r : list Z) : res (list sym) := match k with O => Ok [] | S k => let* s := Scan nx r in let '(y, nx, r) := s in let* ys := scan_all k nx r in Ok (y :: ys) end.
Theorem C33_sequence : forall a xs, zlen a = 24 -> Forall (fun p => in_int 32 (fst p) /\ fst p <> - 2 ^ 31 /\ in_int 64 (snd p) /\ snd p <> - 2 ^ 63) xs ->
  exists t, (forall w, write_all a xs w = Ok (w ++ t)) /\ (t = [] /\ xs = [] \/ exists t', t = 32 :: t') /\ forall nx r, at_text nx r t -> scan_all (length xs) nx r = Ok (map (fun p => SInt (fst p)) xs).
Proof.
  induction xs as [|[x n] xs IH]; intros La F.
  - exists []. split; [intro w; rewrite app_nil_r; auto|]. auto.
  - inversion F as [|? ? (F1 & F2 & F3 & F4) F']; subst. cbn [fst snd] in *.
    destruct (IH La F') as (t0 & T1 & T2 & T3). assert (E : ends_decimal t0) by (destruct T2 as [[-> _]|(t' & ->)]; cbn; lia).
    destruct (C33_int_roundtrip a x n La F1 F2 F3 F4) as (t1 & A1 & A2). exists (32 :: t1 ++ t0). split; [|split; [right; eauto|]].
    + intro w. cbn [write_all]. rewrite A1, bind_ok, T1. rewrite <- !app_assoc. reflexivity.
    + intros nx r A. cbn [length scan_all map fst].
      assert (SC : Scan nx r = Ok (SInt x, fst (Read t0), snd (Read t0))).
      { destruct A as [[-> ->]|A]; [|apply A2; auto; left; inversion A; auto]. rewrite <- (A2 t0 32 (t1 ++ t0) E (or_introl (conj eq_refl eq_refl))). unfold Scan. reflexivity. }
      rewrite SC, bind_ok. rewrite (T3 (fst (Read t0)) (snd (Read t0))) by (right; destruct (Read t0); auto). reflexivity.
Qed.
(** Finding: the smallest LONGINT is written correctly, but scanning it overflows. *)
Theorem C33_min_refuted : exists a t, zlen a = 24 /\ WriteInt a (- 2 ^ 31) 0 [] = Ok t /\ is_int_text (- 2 ^ 31) t /\ Scan 32 t = UB.
Proof.
  destruct (C33_write_int (repeat 0 24) (- 2 ^ 31) 0 eq_refl) as (t & T1 & T2); try (apply in_intb_iff; reflexivity); try discriminate. exists (repeat 0 24), t. split; auto. specialize (T2 []). cbn [app] in T2.
  assert (E : WriteInt (repeat 0 24) (- 2 ^ 31) 0 [] = Ok [45; 50; 49; 52; 55; 52; 56; 51; 54; 52; 56]) by (vm_compute; reflexivity). rewrite E in T2. inversion T2 as [T3]. unfold padded in *. assert (T0 : Z.to_nat (0 - zlen t) = 0%nat) by (pose proof (zlen_nonneg _ t); lia). rewrite T0 in *. cbn [repeat app] in *. subst t. auto.
Qed.

(** * Hexadecimal *)
Lemma MASK16 : forall x, MASK x (-16) = x mod 16.
Proof. intro x. change (-16) with (- 2 ^ 4). rewrite DateProps.MASK_mod by lia. reflexivity. Qed.
Lemma hex_digits_spec : forall k x p q, Z.of_nat k <= zlen q -> exists ds q', hex_digits k x (p ++ q) (zlen p) = Ok ((p ++ ds) ++ q') /\ length ds = k /\ numeral 16 (rev ds) (x mod 16 ^ Z.of_nat k).
Proof.
  induction k as [|k IH]; intros x p q L.
  - exists [], q. rewrite app_nil_r. split; auto. split; auto. change (16 ^ Z.of_nat 0) with 1. rewrite Z.mod_1_r. constructor.
  - cbn [hex_digits]. rewrite MASK16. pose proof (Z.mod_pos_bound x 16 ltac:(lia)) as B. set (c := if x mod 16 <? 10 then x mod 16 + 48 else x mod 16 + 55).
    assert (C : digval c = Some (x mod 16) /\ 0 <= c < 256). { unfold c, digval. destruct (x mod 16 <? 10) eqn:E; split; try lia. - replace ((48 <=? x mod 16 + 48) && (x mod 16 + 48 <=? 57)) with true by lia. f_equal. lia. - replace ((48 <=? x mod 16 + 55) && (x mod 16 + 55 <=? 57)) with false by lia. replace ((65 <=? x mod 16 + 55) && (x mod 16 + 55 <=? 70)) with true by lia. f_equal. lia. }
    destruct C as [C1 C2]. rewrite CHR_inline_nonneg by lia. replace (c <? 256) with true by lia. rewrite bind_ok. destruct q as [|y q]; [rewrite zlen_nil in L; lia|]. rewrite zlen_cons in L. rewrite setA_at, bind_ok, DateProps.ASHR_div, bind_ok by lia. change (2 ^ 4) with 16.
    destruct (IH (x / 16) (p ++ [c]) q ltac:(lia)) as (ds & q' & A & A2 & A3). exists (c :: ds), q'. split; [|split; [cbn [length]; lia|]].
    + replace (p ++ c :: q) with ((p ++ [c]) ++ q) by (rewrite <- app_assoc; auto). replace (zlen p + 1) with (zlen (p ++ [c])) by (rewrite zlen_app; auto). rewrite A, <- !app_assoc. reflexivity.
    + cbn [rev]. replace (x mod 16 ^ Z.of_nat (S k)) with ((x / 16) mod 16 ^ Z.of_nat k * 16 + x mod 16); [apply numeral_snoc; auto|]. rewrite Nat2Z.inj_succ, Z.pow_succ_r by lia. rewrite (Z.rem_mul_r x 16) by (try apply Z.pow_nonzero; lia). lia.
Qed.
(** WriteHex writes a blank and eight hexadecimal digits that denote the number modulo 2^32. *)
Theorem C33_write_hex : forall a x, zlen a = 20 -> exists hs, length hs = 8%nat /\ numeral 16 hs (x mod 2 ^ 32) /\ forall w, WriteHex a x w = Ok (w ++ 32 :: hs).
Proof.
  intros a x La. destruct (hex_digits_spec 8 x [] a ltac:(lia)) as (ds & q & A & B & C). cbn [app] in A. change (zlen []) with 0 in A. exists (rev ds). rewrite rev_length. split; auto. split; auto. intro w. unfold WriteHex. rewrite A, bind_ok. replace 8 with (zlen ds) by (unfold zlen; lia). rewrite write_down_spec by lia. rewrite <- app_assoc. reflexivity.
Qed.
Lemma wrap_s_eq : forall x y k, in_int 32 x -> y = x + k * 2 ^ 32 -> wrap_s 32 y = x.
Proof. intros x y k H ->. unfold wrap_s. unfold in_int in H. change (2 ^ (32 - 1)) with 2147483648 in *. change (2 ^ 32) with 4294967296. replace (x + k * 4294967296 + 2147483648) with (x + 2147483648 + k * 4294967296) by lia. rewrite Z_mod_plus_full, Z.mod_small; lia. Qed.
Lemma wrap_s_ex : forall y, exists k, wrap_s 32 y = y + k * 2 ^ 32.
Proof. intro y. unfold wrap_s. change (2 ^ (32 - 1)) with 2147483648. change (2 ^ 32) with 4294967296. exists (- ((y + 2147483648) / 4294967296)). pose proof (Z.div_mod (y + 2147483648) 4294967296 ltac:(lia)). lia. Qed.
Lemma hex_val_app : forall a b k, hex_val (a ++ b) k = let* k := hex_val a k in hex_val b k.
Proof. induction a as [|c a IH]; intros b k; cbn [app hex_val]; auto. destruct (ASHL k 4); cbn [bind]; auto. destruct (chk 64 (a0 + (c - 48))); cbn [bind]; auto. Qed.
Lemma hex_val_spec : forall ds v k, numeral 16 ds v -> in_int 32 k -> exists r j, hex_val (map conv ds) k = Ok r /\ in_int 32 r /\ r = k * 16 ^ zlen ds + v + j * 2 ^ 32.
Proof.
  intros ds v k H K. induction H as [|ds v c d H IH Hc Hd].
  - exists k, 0. split; auto. split; auto. rewrite zlen_nil, Z.pow_0_r. lia.
  - destruct IH as (r & j & A & B & C). rewrite map_app, hex_val_app, A, bind_ok. cbn [map hex_val]. destruct (conv_digval c d Hc) as [-> _]. unfold in_int in B. change (2 ^ (32 - 1)) with 2147483648 in B.
    rewrite DateProps.ASHL_mul by (try lia; unfold in_int; change (2 ^ (64 - 1)) with 9223372036854775808; change (2 ^ 4) with 16; lia). rewrite bind_ok. change (2 ^ 4) with 16. rewrite DateProps.chk_in by (unfold in_int; change (2 ^ (64 - 1)) with 9223372036854775808; lia). rewrite bind_ok.
    destruct (wrap_s_ex (r * 16 + (48 + d - 48))) as (j2 & W). exists (wrap_s 32 (r * 16 + (48 + d - 48))), (16 * j + j2). split; auto. split; [apply wrap_s_range; lia|]. rewrite W, C, zlen_app. change (zlen [c]) with 1. rewrite Z.pow_add_r, Z.pow_1_r by (try apply zlen_nonneg; lia). change (2 ^ 32) with 4294967296. lia.
Qed.
(** The eight digits, with a 0 in front (so that they do not look like a name) and an H behind, are scanned as the number. *)
Theorem C33_hex_scan : forall x hs f nx r, in_int 32 x -> length hs = 8%nat -> numeral 16 hs (x mod 2 ^ 32) -> at_text nx r (48 :: hs ++ 72 :: f) -> Scan nx r = Ok (SInt x, fst (Read f), snd (Read f)).
Proof.
  intros x hs f nx r Hx L N A. unfold Scan. rewrite (skip_at nx r 0 48 (hs ++ 72 :: f)) by (auto; lia). change (isletter 48) with false. cbn [Z.eqb Pos.eqb orb]. change ((48 <=? 48) && (48 <=? 57)) with true. cbn iota.
  rewrite num_loop_spec; [|eapply numeral_digits; eauto|cbn; lia|cbn [length]; lia]. rewrite bind_ok. cbn [app Read fst snd Z.eqb Pos.eqb]. destruct (Read f) as [nf rf] eqn:Rf. cbn [fst snd]. cbn [length]. rewrite map_length, L. change (Z.of_nat 9 >? 8) with true. cbn iota. change (9 - 8)%nat with 1%nat. cbn [skipn].
  destruct hs as [|c hs]; [discriminate|]. cbn [map]. cbn [length] in L. rewrite map_length. replace (Z.of_nat (length hs) =? 7) with true by lia. cbn [andb].
  assert (D : exists d v, digval c = Some d /\ 0 <= d < 16 /\ numeral 16 hs v /\ x mod 2 ^ 32 = d * 16 ^ 7 + v).
  { pose proof (numeral_digits _ _ _ N) as F. inversion F as [|? ? (d & Dc) F2]; subst. destruct (conv_digval c d Dc) as (_ & D2 & _).
    assert (G : exists v, numeral 16 hs v). { clear - F2. induction hs as [|h hs IH] using rev_ind; [exists 0; constructor|]. apply Forall_app in F2. destruct F2 as [F2 F3]. destruct (IH F2) as (v & V). inversion F3 as [|? ? (dh & Dh) _]; subst. exists (v * 16 + dh). apply numeral_snoc; auto. destruct (conv_digval h dh Dh) as (_ & D2 & _). auto. }
    destruct G as (v & V). exists d, v. split; auto. split; auto. split; auto. pose proof (numeral_cons 16 hs v c d ltac:(lia) V Dc D2) as NC. rewrite (numeral_value 16 _ _ N _ NC). replace (zlen hs) with 7 by (unfold zlen; lia). reflexivity. }
  destruct D as (d & v & D1 & D2 & D3 & D4). destruct (conv_digval c d D1) as (CV & _). rewrite CV. replace (48 + d - 48) with d by lia. set (k := if d >=? 8 then d - 16 else d).
  assert (K : in_int 32 k) by (unfold in_int, k; change (2 ^ (32 - 1)) with 2147483648; destruct (d >=? 8); lia). destruct (hex_val_spec hs v k D3 K) as (w & j & E1 & E2 & E3). rewrite E1, bind_ok. unfold negate. rewrite bind_ok. repeat f_equal.
  replace (zlen hs) with 7 in E3 by (unfold zlen; lia). change (16 ^ 7) with 268435456 in *. change (2 ^ 32) with 4294967296 in *. unfold in_int in *. change (2 ^ (32 - 1)) with 2147483648 in *.
  assert (exists m, k = d + 16 * m) as (m & Km) by (unfold k; destruct (d >=? 8); [exists (-1)|exists 0]; lia). pose proof (Z.div_mod x 4294967296 ltac:(lia)). subst k. rewrite Km in E3. lia.
Qed.
(** Without the 0, the digits of a negative number may be taken for a name. *)
Theorem C33_hex_name_refuted : exists a t, zlen a = 20 /\ WriteHex a (-1) [] = Ok t /\ Scan 32 (t ++ [72]) = Ok (SName [70; 70; 70; 70; 70; 70; 70; 70; 72], 0, []).
Proof. exists (repeat 0 20), [32; 70; 70; 70; 70; 70; 70; 70; 70]. split; [|split]; vm_compute; reflexivity. Qed.

(** * Names and strings *)
Definition name_char (c : Z) : Prop := 65 <= c <= 90 \/ 97 <= c <= 122 \/ 48 <= c <= 57 \/ c = 46 \/ c = 47.
(** A name of at most 62 letters, digits, points and slashes that starts with a letter is scanned whole when followed by the end, a blank or a line end. *)
Theorem C33_name : forall c s k f nx r, (65 <= c <= 90 \/ 97 <= c <= 122) -> Forall name_char s -> (length s < 62)%nat -> (f = [] \/ exists e f', f = e :: f' /\ (e = 32 \/ e = 13)) -> at_text nx r (repeat 32 k ++ (c :: s) ++ f) ->
  Scan nx r = Ok (SName (c :: s), fst (Read f), snd (Read f)).
Proof.
  assert (CAPL : forall c, 65 <= c <= 90 \/ 97 <= c <= 122 -> 65 <= CAP c <= 90).
  { intros c H. assert (B : is_byte c) by (unfold is_byte; lia). destruct (CAP_letter c B) as (_ & _). unfold CAP, wrap_u. assert (In c (map Z.of_nat (seq 0 256))) as I by (apply in_map_iff; exists (Z.to_nat c); split; [lia|apply in_seq; lia]).
    assert (G : forallb (fun c => negb ((65 <=? c) && (c <=? 90) || (97 <=? c) && (c <=? 122)) || (65 <=? (Z.land c 95) mod 2 ^ 8) && ((Z.land c 95) mod 2 ^ 8 <=? 90)) (map Z.of_nat (seq 0 256)) = true) by (vm_compute; reflexivity).
    rewrite forallb_forall in G. specialize (G c I). lia. }
  assert (CAPD : forall c, 46 <= c <= 57 -> CAP c < 65). { intros c H. assert (c = 46 \/ c = 47 \/ c = 48 \/ c = 49 \/ c = 50 \/ c = 51 \/ c = 52 \/ c = 53 \/ c = 54 \/ c = 55 \/ c = 56 \/ c = 57) as Q by lia. repeat (destruct Q as [->|Q]; [reflexivity|]). subst; reflexivity. }
  assert (LOOP : forall s room ch acc f, Forall name_char s -> (length s <= room)%nat -> (room + length acc = 62)%nat -> (f = [] \/ exists e f', f = e :: f' /\ (e = 32 \/ e = 13)) -> name_loop room ch (s ++ f) acc = (acc ++ ch :: s, fst (Read f), snd (Read f))).
  { induction s as [|c s IH]; intros room ch acc f F L R Hf.
    - assert (NE : forall i, name_ends (fst (Read f)) i = true) by (intro i; destruct Hf as [->|(e & f' & -> & [->| ->])]; reflexivity). destruct room; cbn [name_loop app]; destruct (Read f) as [e f'] eqn:Rf; cbn [fst snd] in *; rewrite ?NE; reflexivity.
    - inversion F as [|? ? Fc Fs]; subst. cbn [length] in L. destruct room as [|room]; [lia|]. cbn [name_loop app Read].
      assert (NE : name_ends c (Z.of_nat (length (acc ++ [ch]))) = false).
      { unfold name_ends. rewrite app_length. cbn [length]. replace (Z.of_nat (length acc + 1) =? 63) with false by lia. destruct Fc as [Fc|[Fc|Fc]].
        - pose proof (CAPL c (or_introl Fc)). replace (CAP c >? 90) with false by lia. replace (65 >? CAP c) with false by lia. replace (48 >? c) with false by lia. reflexivity.
        - pose proof (CAPL c (or_intror Fc)). replace (CAP c >? 90) with false by lia. replace (65 >? CAP c) with false by lia. replace (48 >? c) with false by lia. reflexivity.
        - pose proof (CAPD c ltac:(lia)). replace (CAP c >? 90) with false by lia. replace (c >? 57) with false by lia. replace ((48 >? c) && negb (c =? 46) && negb (c =? 47)) with false by lia. rewrite andb_false_r. reflexivity. }
      rewrite NE. rewrite IH by (auto; rewrite ?app_length; cbn [length]; lia). rewrite <- app_assoc. reflexivity. }
  intros c s k f nx r Hc Hs L Hf A. unfold Scan. cbn [app] in A. rewrite (skip_at _ _ _ _ _ A) by lia. pose proof (CAPL c Hc) as CC. unfold isletter. replace ((65 <=? CAP c) && (CAP c <=? 90)) with true by lia. cbn [orb]. rewrite LOOP by (auto; cbn [length]; lia). reflexivity.
Qed.
(** A string in quotes of at most 63 printable characters is scanned whole. *)
Theorem C33_string : forall s k f nx r, Forall (fun c => 32 <= c /\ c <> 34) s -> (length s <= 62)%nat -> at_text nx r (repeat 32 k ++ (34 :: s) ++ 34 :: f) -> Scan nx r = Ok (SString s, fst (Read f), snd (Read f)).
Proof.
  assert (LOOP : forall s room acc f, Forall (fun c => 32 <= c /\ c <> 34) s -> (length s < room)%nat -> str_loop room (fst (Read (s ++ 34 :: f))) (snd (Read (s ++ 34 :: f))) acc = (acc ++ s, 34, f)).
  { induction s as [|c s IH]; intros room acc f F L; (destruct room as [|room]; [lia|]); cbn [app Read fst snd str_loop].
    - rewrite app_nil_r. reflexivity.
    - inversion F as [|? ? Fc Fs]; subst. replace (negb (c =? 34) && (c >=? 32)) with true by lia. cbn [length] in L. specialize (IH room (acc ++ [c]) f Fs ltac:(lia)). destruct (Read (s ++ 34 :: f)) as [e l]. cbn [fst snd] in IH. rewrite IH, <- app_assoc. reflexivity. }
  intros s k f nx r F L A. unfold Scan. cbn [app] in A. rewrite (skip_at _ _ _ _ _ A) by lia. change (isletter 34) with false. cbn [Z.eqb Pos.eqb orb]. specialize (LOOP s 63%nat [] f F ltac:(lia)). destruct (Read (s ++ 34 :: f)) as [e l] eqn:E. cbn [fst snd] in LOOP. rewrite LOOP. destruct (Read f) as [nf rf]. reflexivity.
Qed.
Example C33_nonvacuous : (let* t := write_all (repeat 0 24) [(-2147483647, 0); (0, 5); (1234567890, 12)] [] in scan_all 3 32 t) = Ok [SInt (-2147483647); SInt 0; SInt 1234567890].
Proof. vm_compute. reflexivity. Qed.
Print Assumptions C33_write_int. Print Assumptions C33_int_roundtrip. Print Assumptions C33_sequence. Print Assumptions C33_min_refuted. Print Assumptions C33_write_hex. Print Assumptions C33_hex_scan. Print Assumptions C33_hex_name_refuted. Print Assumptions C33_name. Print Assumptions C33_string.
