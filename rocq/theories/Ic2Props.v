(** C105: integers from strings. *)
From Verif Require Import Base ArrZ Ic2Model Ic2Spec.
Lemma bok : forall A B (a : A) (k : A -> res B), bind (Ok a) k = k a. Proof. reflexivity. Qed.
Lemma numeric : forall c, digit c -> IsNumeric c = true. Proof. intros c D. unfold digit, IsNumeric in *. lia. Qed.
Lemma numeric_inv : forall c, IsNumeric c = true -> digit c. Proof. intros c D. unfold digit, IsNumeric in *. lia. Qed.
Lemma whiteb : forall c, white c -> IsWhiteSpace c = true. Proof. intros c D. unfold white, IsWhiteSpace in *. lia. Qed.
Lemma whiteb_inv : forall c, IsWhiteSpace c = true -> white c. Proof. intros c D. unfold white, IsWhiteSpace in *. lia. Qed.
(** Numbers. *)
Definition ev (a : Z) (ds : list Z) : Z := fold_left (fun a c => 10 * a + (c - 48)) ds a.
Lemma ev_lin : forall ds a, ev a ds = a * 10 ^ zlen ds + ev 0 ds.
Proof.
  induction ds as [|c ds IH]; intros a; [cbn; lia|]. change (ev a (c :: ds)) with (ev (10 * a + (c - 48)) ds). change (ev 0 (c :: ds)) with (ev (c - 48) ds).
  rewrite (IH (10 * a + (c - 48))), (IH (c - 48)). rewrite zlen_cons. pose proof (zlen_nonneg _ ds). replace (1 + zlen ds) with (zlen ds + 1) by lia. replace (zlen ds + 1) with (Z.succ (zlen ds)) by lia. rewrite Z.pow_succ_r by lia. nia.
Qed.
Lemma ev_range : forall ds, Forall digit ds -> 0 <= ev 0 ds < 10 ^ zlen ds.
Proof.
  intros ds F. induction F as [|c ds D F IH]; [cbn; lia|]. change (ev 0 (c :: ds)) with (ev (c - 48) ds). rewrite ev_lin, zlen_cons. pose proof (zlen_nonneg _ ds). replace (1 + zlen ds) with (Z.succ (zlen ds)) by lia. rewrite Z.pow_succ_r by lia. unfold digit in D. nia.
Qed.
Lemma ev_cons : forall c ds, ev 0 (c :: ds) = (c - 48) * 10 ^ zlen ds + ev 0 ds. Proof. intros. change (ev 0 (c :: ds)) with (ev (c - 48) ds). apply ev_lin. Qed.
Lemma ev_zeros : forall zs ds, Forall (fun c => c = 48) zs -> ev 0 (zs ++ ds) = ev 0 ds.
Proof. intros zs ds F. induction F as [|c zs E F IH]; [reflexivity|]. subst c. cbn [app]. change (ev 0 (48 :: zs ++ ds)) with (ev 0 (zs ++ ds)). exact IH. Qed.
(** The comparison of digits is the comparison of numbers. *)
Lemma leq_ok : forall a b f pre post hpre hpost, length a = length b -> Forall digit a -> Forall digit b -> (length a < f)%nat ->
  LessOrEqual f (pre ++ a ++ post) (hpre ++ b ++ hpost) (zlen pre) (zlen pre + zlen a) (zlen hpre) = Ok (ev 0 a <=? ev 0 b).
Proof.
  induction a as [|x a IH]; intros [|y b] f pre post hpre hpost L Fa Fb Lf; try discriminate; (destruct f as [|f]; [cbn in Lf; lia|]); cbn [LessOrEqual].
  - change (zlen (@nil Z)) with 0. replace (zlen pre =? zlen pre + 0) with true by lia. reflexivity.
  - inversion Fa as [|? ? Dx Fa2]; subst. inversion Fb as [|? ? Dy Fb2]; subst. cbn [length] in L, Lf. pose proof (zlen_nonneg _ a) as Na. rewrite (zlen_cons _ x a). replace (zlen pre =? zlen pre + (1 + zlen a)) with false by lia. cbn [negb app]. rewrite !getA_at, !bok.
    pose proof (ev_range a Fa2) as Ra. pose proof (ev_range b Fb2) as Rb. assert (Z1 : zlen a = zlen b) by (unfold zlen; lia). rewrite !ev_cons. rewrite <- Z1 in *. unfold digit in *.
    destruct (Z.ltb_spec x y) as [C|C]; [f_equal; symmetry; apply Z.leb_le; nia|]. destruct (x >? y) eqn:C2; [f_equal; symmetry; apply Z.leb_gt; nia|]. assert (x = y) by lia. subst y.
    specialize (IH b f (pre ++ [x]) post (hpre ++ [x]) hpost ltac:(lia) Fa2 Fb2 ltac:(lia)). rewrite !zlen_app in IH. change (zlen [x]) with 1 in IH. rewrite <- !app_assoc in IH. cbn [app] in IH. replace (zlen pre + (1 + zlen a)) with (zlen pre + 1 + zlen a) by lia. rewrite IH. f_equal. apply Bool.eq_iff_eq_true. rewrite !Z.leb_le. lia.
Qed.
(** Reading digits. *)
Fixpoint nst (ds : list Z) (i start : Z) : Z := match ds with [] => start | c :: ds => nst ds (i + 1) (if (start <? 0) && negb (c =? 48) then i else start) end.
Lemma nst_set : forall ds i start, 0 <= start -> nst ds i start = start.
Proof. induction ds as [|c ds IH]; intros i start H; [reflexivity|]. cbn [nst]. replace (start <? 0) with false by lia. cbn [andb]. auto. Qed.
Lemma nst_zeros : forall zs ds i, Forall (fun c => c = 48) zs -> nst (zs ++ ds) i (-1) = nst ds (i + zlen zs) (-1).
Proof. intros zs ds i F. revert i. induction F as [|c zs E F IH]; intros i; [cbn; f_equal; lia|]. subst c. cbn [app nst]. replace ((-1 <? 0) && negb (48 =? 48)) with false by reflexivity. rewrite IH, zlen_cons. f_equal. lia. Qed.
Lemma scan_W : forall ds str c rest i prev p start, Forall digit ds -> IsNumeric c = false -> scan str (ds ++ c :: rest) i prev W p start = finish str c (i + zlen ds) p (nst ds i start).
Proof.
  induction ds as [|d ds IH]; intros str c rest i prev p start F N.
  - cbn [app scan step]. rewrite N. change (zlen (@nil Z)) with 0. rewrite Z.add_0_r. reflexivity.
  - inversion F as [|? ? D F2]; subst. cbn [app scan step]. rewrite (numeric d D). unfold digit in D. replace (d =? 45) with false by lia. replace (d =? 43) with false by lia. rewrite IH by auto. rewrite zlen_cons. cbn [nst]. f_equal. lia.
Qed.
Definition positive_of (sg : list Z) : bool := match sg with [45] => false | _ => true end.
Lemma scan_num : forall str ws sg ds rest i, Forall white ws -> sign sg -> Forall digit ds -> ds <> [] ->
  scan str (ws ++ sg ++ ds ++ 0 :: rest) i padding SI true (-1) = finish str 0 (i + zlen ws + zlen sg + zlen ds) (positive_of sg) (nst ds (i + zlen ws + zlen sg) (-1)).
Proof.
  intros str ws sg ds rest i Fw Hs Fd Nd. revert i. induction Fw as [|c ws Wc Fw IH]; intros i.
  - cbn [app]. change (zlen (@nil Z)) with 0. rewrite Z.add_0_r. destruct ds as [|d ds]; [congruence|]. inversion Fd as [|? ? D F2]; subst. pose proof D as D'. unfold digit in D'.
    assert (NW : IsWhiteSpace d = false) by (unfold IsWhiteSpace; lia).
    destruct Hs as [-> | [-> | ->]]; cbn [app positive_of].
    + cbn [scan step]. rewrite NW, (numeric d D). replace ((d =? 43) || (d =? 45)) with false by lia. replace (d =? 45) with false by lia. replace (d =? 43) with false by lia. rewrite scan_W by (auto; reflexivity). change (zlen (@nil Z)) with 0. rewrite zlen_cons. cbn [nst]. rewrite !Z.add_0_r. f_equal. lia.
    + change (scan str (43 :: d :: ds ++ 0 :: rest) i padding SI true (-1)) with (scan str (d :: ds ++ 0 :: rest) (i + 1) valid SS true (-1)). cbn [scan step]. rewrite (numeric d D). replace (d =? 45) with false by lia. replace (d =? 43) with false by lia. rewrite scan_W by (auto; reflexivity). change (zlen [43]) with 1. rewrite zlen_cons. cbn [nst]. f_equal. lia.
    + change (scan str (45 :: d :: ds ++ 0 :: rest) i padding SI true (-1)) with (scan str (d :: ds ++ 0 :: rest) (i + 1) valid SS false (-1)). cbn [scan step]. rewrite (numeric d D). replace (d =? 45) with false by lia. replace (d =? 43) with false by lia. rewrite scan_W by (auto; reflexivity). change (zlen [45]) with 1. rewrite zlen_cons. cbn [nst]. f_equal. lia.
  - cbn [app]. cbn [scan step]. rewrite (whiteb c Wc). rewrite IH. rewrite zlen_cons. f_equal; [lia|f_equal; lia].
Qed.
(** A numeral with a digit other than zero is judged by its value. *)
Theorem C105_format_partial : forall str ws sg ds, numeral str ws sg ds -> number ds <> 0 ->
  FormatInt str = Ok (if in_intb 32 (value sg ds) then strAllRight else strOutOfRange).
Proof.
  intros str ws sg ds (rest & E & Fw & Hs & Fd & Nd) NZ. unfold FormatInt. rewrite E at 2. rewrite scan_num by auto. rewrite !Z.add_0_l.
  assert (S : exists zs d t, ds = zs ++ d :: t /\ Forall (fun c => c = 48) zs /\ d <> 48).
  { clear - NZ Fd. induction ds as [|c ds IH]; [cbn in NZ; lia|]. inversion Fd as [|? ? D F2]; subst. destruct (Z.eq_dec c 48) as [->|Nc].
    - destruct (IH F2) as (zs & d & t & -> & F & N). { exact NZ. } exists (48 :: zs), d, t. repeat split; auto.
    - exists [], c, ds. repeat split; auto. }
  destruct S as (zs & d & t & -> & Fz & N48). rewrite nst_zeros by exact Fz. cbn [nst]. replace (d =? 48) with false by lia. cbn [negb andb Z.ltb Z.compare]. 
  pose proof (zlen_nonneg _ ws) as N1. pose proof (zlen_nonneg _ sg) as N2. pose proof (zlen_nonneg _ zs) as N3. pose proof (zlen_nonneg _ t) as N4.
  rewrite nst_set by lia. apply Forall_app in Fd. destruct Fd as [_ Fd].
  assert (V : number (zs ++ d :: t) = ev 0 (d :: t)) by (apply ev_zeros; exact Fz). 
  pose proof (ev_range (d :: t) Fd) as R. assert (Lo : 10 ^ zlen t <= ev 0 (d :: t)). { rewrite ev_cons. inversion Fd as [|? ? D F2]; subst. pose proof (ev_range t F2). unfold digit in D. nia. }
  unfold finish. rewrite Z.eqb_refl. rewrite zlen_app, zlen_cons. unfold maxDigits.
  assert (IV : in_intb 32 (value sg (zs ++ d :: t)) = (ev 0 (d :: t) <=? (if positive_of sg then 2147483647 else 2147483648))).
  { unfold value. rewrite V. unfold in_intb. change (2 ^ (32 - 1)) with 2147483648. destruct Hs as [-> | [-> | ->]]; cbn [positive_of]; lia. }
  rewrite IV. clear IV. set (st := zlen ws + zlen sg + zlen zs) in *. replace (zlen ws + zlen sg + (zlen zs + (1 + zlen t)) - st) with (1 + zlen t) by (subst st; lia).
  rewrite zlen_cons in R.
  destruct (Z.ltb_spec (1 + zlen t) 10) as [C|C].
  - assert (10 ^ (1 + zlen t) <= 10 ^ 9) by (apply Z.pow_le_mono_r; lia). change (10 ^ 9) with 1000000000 in *. replace (ev 0 (d :: t) <=? (if positive_of sg then 2147483647 else 2147483648)) with true by (symmetry; apply Z.leb_le; destruct (positive_of sg); lia). reflexivity.
  - destruct (Z.eqb_spec (1 + zlen t) 10) as [C2|C2].
    + assert (Q : forall high b, high = b ++ [0] -> length b = 10%nat -> Forall digit b -> leq str high st (zlen ws + zlen sg + (zlen zs + (1 + zlen t))) = Ok (ev 0 (d :: t) <=? ev 0 b)).
      { intros high b -> Lb Fb. unfold leq. pose proof (leq_ok (d :: t) b (S (Z.to_nat (zlen ws + zlen sg + (zlen zs + (1 + zlen t)) - st))) (ws ++ sg ++ zs) (0 :: rest) [] [0]) as X.
        rewrite !zlen_app in X. rewrite zlen_cons in X. change (zlen (@nil Z)) with 0 in X. cbn [app] in X. rewrite <- !app_assoc in X. cbn [app] in X. rewrite E. rewrite <- app_assoc. cbn [app]. 
        replace st with (zlen ws + (zlen sg + zlen zs)) at 2 by (subst st; lia). replace (zlen ws + zlen sg + (zlen zs + (1 + zlen t))) with (zlen ws + (zlen sg + zlen zs) + (1 + zlen t)) at 2 by lia. apply X; auto.
        - unfold zlen in C2. cbn [length]. lia.
        - cbn [length]. unfold zlen in *. subst st. lia. }
      destruct (positive_of sg).
      * rewrite (Q maxInt [50; 49; 52; 55; 52; 56; 51; 54; 52; 55] eq_refl eq_refl ltac:(repeat constructor; cbn; lia)), bok. reflexivity.
      * rewrite (Q minInt [50; 49; 52; 55; 52; 56; 51; 54; 52; 56] eq_refl eq_refl ltac:(repeat constructor; cbn; lia)), bok. reflexivity.
    + assert (10 ^ 10 <= 10 ^ zlen t) by (apply Z.pow_le_mono_r; lia). change (10 ^ 10) with 10000000000 in *. replace (ev 0 (d :: t) <=? (if positive_of sg then 2147483647 else 2147483648)) with false by (symmetry; apply Z.leb_gt; destruct (positive_of sg); lia). reflexivity.
Qed.
(** Zero is judged by the number of characters of the string: up to eight are right, nine read before the array, more are out of range. *)
Theorem C105_zero_refuted : forall str ws sg ds, numeral str ws sg ds -> Forall (fun c => c = 48) ds -> let n := zlen ws + zlen sg + zlen ds in
  (n < 9 -> FormatInt str = Ok strAllRight) /\ (n = 9 -> FormatInt str = UB) /\ (n > 9 -> FormatInt str = Ok strOutOfRange).
Proof.
  intros str ws sg ds (rest & E & Fw & Hs & Fd & Nd) Fz n. unfold FormatInt. pose proof (scan_num str ws sg ds rest 0 Fw Hs Fd Nd) as Q. rewrite <- E in Q. rewrite Q. rewrite !Z.add_0_l. fold n.
  assert (X : nst ds (zlen ws + zlen sg) (-1) = -1) by (rewrite <- (app_nil_r ds), nst_zeros by exact Fz; reflexivity). rewrite X. unfold finish, maxDigits. cbn [Z.eqb]. split; [|split]; intros H.
  - replace (n - -1 <? 10) with true by lia. reflexivity.
  - replace (n - -1 <? 10) with false by lia. replace (n - -1 =? 10) with true by lia. unfold leq. cbn [LessOrEqual]. replace (-1 =? n) with false by lia. cbn [negb]. assert (T : getA str (-1) = UB) by (unfold getA; replace (-1 <? Z.of_nat (length str)) with true by lia; reflexivity). destruct (positive_of sg); rewrite T; reflexivity.
  - replace (n - -1 <? 10) with false by lia. replace (n - -1 =? 10) with false by lia. reflexivity.
Qed.
(** Only numerals are accepted. *)
Lemma W_sound : forall l str i prev p start r, scan str l i prev W p start = Ok r -> r = strAllRight \/ r = strOutOfRange -> exists ds rest, l = ds ++ 0 :: rest /\ Forall digit ds.
Proof.
  induction l as [|c l IH]; intros str i prev p start r H R; [discriminate|]. cbn [scan step] in H. destruct (IsNumeric c) eqn:N.
  - pose proof (numeric_inv c N) as D. pose proof D as D'. unfold digit in D'. replace (c =? 45) with false in H by lia. replace (c =? 43) with false in H by lia. destruct (IH _ _ _ _ _ _ H R) as (ds & rest & -> & F). exists (c :: ds), rest. split; [reflexivity|constructor; auto].
  - unfold finish in H. destruct (Z.eqb_spec c 0) as [->|C]; [exists [], l; split; [reflexivity|constructor]|]. injection H as <-. destruct R; discriminate.
Qed.
Lemma S_sound : forall l str i prev p start r, scan str l i prev SS p start = Ok r -> r = strAllRight \/ r = strOutOfRange -> exists ds rest, l = ds ++ 0 :: rest /\ Forall digit ds /\ ds <> [].
Proof.
  intros [|c l] str i prev p start r H R; [discriminate|]. cbn [scan step] in H. destruct (IsNumeric c) eqn:N.
  - pose proof (numeric_inv c N) as D. pose proof D as D'. unfold digit in D'. replace (c =? 45) with false in H by lia. replace (c =? 43) with false in H by lia. destruct (W_sound _ _ _ _ _ _ _ H R) as (ds & rest & -> & F). exists (c :: ds), rest. split; [reflexivity|split; [constructor; auto|discriminate]].
  - injection H as <-. destruct prev; destruct (c =? 0); destruct R; discriminate.
Qed.
Theorem C105_only_numerals : forall str r, FormatInt str = Ok r -> r = strAllRight \/ r = strOutOfRange -> exists ws sg ds, numeral str ws sg ds.
Proof.
  intros str r H R. unfold FormatInt in H.
  assert (G : forall l i prev p, scan str l i prev SI p (-1) = Ok r -> exists ws sg ds, numeral l ws sg ds).
  { clear H. induction l as [|c l IH]; intros i prev p H; [discriminate|]. cbn [scan step] in H. destruct (IsWhiteSpace c) eqn:Wc.
    - destruct (IH _ _ _ H) as (ws & sg & ds & rest & -> & Fw & Q). exists (c :: ws), sg, ds, rest. split; [reflexivity|]. split; [constructor; [apply whiteb_inv; exact Wc|exact Fw]|exact Q].
    - destruct ((c =? 43) || (c =? 45)) eqn:Sg.
      + destruct (Z.eqb_spec c 45) as [->|C]; [|assert (c = 43) by lia; subst c; cbn [Z.eqb Pos.eqb] in H].
        * destruct (S_sound _ _ _ _ _ _ _ H R) as (ds & rest & -> & F & N). exists [], [45], ds, rest. repeat split; auto. right. right. reflexivity.
        * destruct (S_sound _ _ _ _ _ _ _ H R) as (ds & rest & -> & F & N). exists [], [43], ds, rest. repeat split; auto. right. left. reflexivity.
      + destruct (IsNumeric c) eqn:N.
        * pose proof (numeric_inv c N) as D. pose proof D as D'. unfold digit in D'. replace (c =? 45) with false in H by lia. replace (c =? 43) with false in H by lia. destruct (W_sound _ _ _ _ _ _ _ H R) as (ds & rest & -> & F). exists [], [], (c :: ds), rest. repeat split; auto. left. reflexivity. discriminate.
        * injection H as <-. destruct prev; destruct (c =? 0); destruct R; discriminate. }
  eapply G. exact H.
Qed.
(** A string of white space is empty. *)
Theorem C105_empty : forall ws rest, Forall white ws -> FormatInt (ws ++ 0 :: rest) = Ok strEmpty.
Proof.
  intros ws rest F. unfold FormatInt. assert (G : forall str i, scan str (ws ++ 0 :: rest) i padding SI true (-1) = Ok strEmpty); [|apply G].
  intros str. induction F as [|c ws Wc F IH]; intros i; [reflexivity|]. cbn [app scan step]. rewrite (whiteb c Wc). apply IH.
Qed.
(** The value of an accepted string. *)
Lemma digits_ok : forall ds (p : bool) (a : Z) rest, Forall digit ds -> 0 <= a -> in_int 32 (if p then ev a ds else - ev a ds) -> digits (ds ++ 0 :: rest) p (if p then a else - a) = Ok (if p then ev a ds else - ev a ds).
Proof.
  induction ds as [|c ds IH]; intros p a rest F A I; [reflexivity|]. inversion F as [|? ? D F2]; subst. cbn [app digits]. pose proof D as D'. unfold digit in D'. replace (c =? 0) with false by lia. cbn [negb].
  change (ev a (c :: ds)) with (ev (10 * a + (c - 48)) ds) in *. assert (M : 10 * a + (c - 48) <= ev (10 * a + (c - 48)) ds). { rewrite ev_lin. pose proof (ev_range ds F2). pose proof (zlen_nonneg _ ds). assert (1 <= 10 ^ zlen ds) by (apply (Z.pow_le_mono_r 10 0); lia). nia. }
  specialize (IH p (10 * a + (c - 48)) rest F2 ltac:(lia) I). unfold in_int in I. change (2 ^ (32 - 1)) with 2147483648 in I.
  assert (K : forall x, -2147483648 <= x < 2147483648 -> chk 32 x = Ok x). { intros x Hx. unfold chk, in_intb. change (2 ^ (32 - 1)) with 2147483648. replace ((- (2147483648) <=? x) && (x <? 2147483648)) with true by lia. reflexivity. }
  destruct p; rewrite K by lia; rewrite bok; rewrite K by lia; rewrite bok; rewrite <- IH; f_equal; lia.
Qed.
Lemma skip_ok : forall ws sg ds rest p, Forall white ws -> sign sg -> Forall digit ds -> ds <> [] -> skip (ws ++ sg ++ ds ++ 0 :: rest) p = Ok (match sg with [45] => false | _ => p end, ds ++ 0 :: rest).
Proof.
  intros ws sg ds rest p Fw Hs Fd Nd. induction Fw as [|c ws Wc Fw IH].
  - destruct ds as [|d ds]; [congruence|]. inversion Fd as [|? ? D F2]; subst. unfold digit in D. destruct Hs as [-> | [-> | ->]]; cbn [app skip]; cbn [Z.ltb Z.compare Pos.compare Pos.compare_cont orb Z.eqb Pos.eqb]; replace ((d <? 48) || (d >? 57)) with false by lia; reflexivity.
  - cbn [app skip]. unfold white in Wc. replace ((c <? 48) || (c >? 57)) with true by lia. replace (c =? 45) with false by lia. exact IH.
Qed.
Theorem C105_value : forall str ws sg ds, numeral str ws sg ds -> FormatInt str = Ok strAllRight -> ValueInt str = Ok (value sg ds) /\ in_int 32 (value sg ds).
Proof.
  intros str ws sg ds N A. assert (I : in_int 32 (value sg ds)).
  { destruct (Z.eq_dec (number ds) 0) as [Z0|Z0].
    - unfold value. rewrite Z0. unfold in_int. change (2 ^ (32 - 1)) with 2147483648. destruct sg as [|s1 [|s2 sg]]; try lia. all: destruct s1 as [|q|q]; try lia. all: repeat (destruct q as [q|q|]; try lia).
    - rewrite (C105_format_partial _ _ _ _ N Z0) in A. destruct (in_intb 32 (value sg ds)) eqn:B; [|discriminate]. unfold in_intb in B. unfold in_int. change (2 ^ (32 - 1)) with 2147483648 in *. lia. }
  split; [|exact I]. unfold ValueInt. rewrite A, bok. destruct N as (rest & -> & Fw & Hs & Fd & Nd). rewrite skip_ok by auto. cbn [bind].
  destruct Hs as [-> | [-> | ->]].
  - exact (digits_ok ds true 0 rest Fd ltac:(lia) I).
  - exact (digits_ok ds true 0 rest Fd ltac:(lia) I).
  - exact (digits_ok ds false 0 rest Fd ltac:(lia) I).
Qed.
(** The length of the shortest numeral. *)
Lemma length_ok : forall f n cnt, 0 < n < 10 ^ Z.of_nat f -> exists d, length_loop (S f) n cnt = Ok (cnt + d) /\ 0 < d /\ 10 ^ (d - 1) <= n < 10 ^ d.
Proof.
  induction f as [|f IH]; intros n cnt H; [cbn in H; lia|]. change (length_loop (S (S f)) n cnt) with (if n >? 0 then length_loop (S f) (n / 10) (cnt + 1) else Ok cnt). replace (n >? 0) with true by lia.
  rewrite Nat2Z.inj_succ, Z.pow_succ_r in H by lia. destruct (Z.lt_ge_cases n 10) as [C|C].
  - rewrite Z.div_small by lia. exists 1. split; [reflexivity|]. cbn. lia.
  - destruct (IH (n / 10) (cnt + 1)) as (d & E & D & B1 & B2). { split; [apply Z.div_str_pos; lia|apply Z.div_lt_upper_bound; lia]. }
    exists (d + 1). rewrite E. split; [f_equal; lia|]. split; [lia|]. replace (d + 1 - 1) with (Z.succ (d - 1)) by lia. replace (d + 1) with (Z.succ d) by lia. rewrite !Z.pow_succ_r by lia. pose proof (Z.div_mod n 10 ltac:(lia)). pose proof (Z.mod_pos_bound n 10 ltac:(lia)). lia.
Qed.
Lemma pow_unique : forall n a b, 0 < a -> 0 < b -> 10 ^ (a - 1) <= n < 10 ^ a -> 10 ^ (b - 1) <= n < 10 ^ b -> a = b.
Proof.
  intros n a b A B Ha Hb. destruct (Z.lt_trichotomy a b) as [C|[C|C]]; [exfalso| exact C|exfalso].
  - assert (10 ^ a <= 10 ^ (b - 1)) by (apply Z.pow_le_mono_r; lia). lia.
  - assert (10 ^ b <= 10 ^ (a - 1)) by (apply Z.pow_le_mono_r; lia). lia.
Qed.
Theorem C105_length : forall ds v neg, shortest ds -> in_int 32 v -> neg = (v <? 0) -> number ds = Z.abs v -> LengthInt v = Ok (zlen ds + if neg then 1 else 0).
Proof.
  intros ds v neg (F & Sh) I -> E. unfold in_int in I. change (2 ^ (32 - 1)) with 2147483648 in I. change (number ds) with (ev 0 ds) in E.
  destruct Sh as [->|(d & t & -> & N)].
  - cbn in E. assert (v = 0) by lia. subst v. reflexivity.
  - inversion F as [|? ? D F2]; subst. pose proof (ev_range (d :: t) F) as R. pose proof (zlen_nonneg _ t) as Zt. assert (Lo : 10 ^ zlen t <= ev 0 (d :: t)). { rewrite ev_cons. pose proof (ev_range t F2). unfold digit in D. nia. }
    assert (P0 : 1 <= 10 ^ zlen t) by (apply (Z.pow_le_mono_r 10 0); lia). rewrite zlen_cons in *. rewrite E in R, Lo.
    assert (U : forall k, 0 < k -> 10 ^ (k - 1) <= Z.abs v < 10 ^ k -> k = 1 + zlen t). { intros k K Hk. apply (pow_unique (Z.abs v)); [lia|lia|exact Hk|]. replace (1 + zlen t - 1) with (zlen t) by lia. lia. }
    unfold LengthInt. destruct (Z.eqb_spec v (- 2147483648)) as [->|C].
    + rewrite <- (U 10); [reflexivity|lia|cbn; lia].
    + destruct (Z.leb_spec v 0) as [C2|C2].
      * assert (K : chk 32 (- v) = Ok (- v)). { unfold chk, in_intb. change (2 ^ (32 - 1)) with 2147483648. replace ((- (2147483648) <=? - v) && (- v <? 2147483648)) with true by lia. reflexivity. } rewrite K, bok.
        destruct (length_ok 10 (- v) 1) as (k & L & K0 & B). { change (10 ^ Z.of_nat 10) with 10000000000. lia. } rewrite L. rewrite <- (U k); [|lia|replace (Z.abs v) with (- v) by lia; exact B]. replace (v <? 0) with true by lia. f_equal. lia.
      * destruct (length_ok 10 v 0) as (k & L & K0 & B). { change (10 ^ Z.of_nat 10) with 10000000000. lia. } rewrite L. rewrite <- (U k); [|lia|replace (Z.abs v) with v by lia; exact B]. replace (v <? 0) with false by lia. f_equal. lia.
Qed.
(** Strings that meet the hypotheses: the smallest integer behind a blank, and nine zeros. *)
Example C105_met : numeral [32; 45; 48; 50; 49; 52; 55; 52; 56; 51; 54; 52; 56; 0; 7] [32] [45] [48; 50; 49; 52; 55; 52; 56; 51; 54; 52; 56] /\
  ValueInt [32; 45; 48; 50; 49; 52; 55; 52; 56; 51; 54; 52; 56; 0; 7] = Ok (-2147483648) /\ FormatInt [50; 49; 52; 55; 52; 56; 51; 54; 52; 56; 0] = Ok strOutOfRange /\
  FormatInt [48; 48; 48; 48; 48; 48; 48; 48; 48; 0] = UB /\ FormatInt [48; 48; 48; 48; 48; 48; 48; 48; 48; 48; 0] = Ok strOutOfRange.
Proof.
  split; [|repeat split; vm_compute; reflexivity]. exists [7]. split; [reflexivity|]. split; [repeat constructor; cbn; lia|]. split; [right; right; reflexivity|]. split; [repeat constructor; cbn; lia|discriminate].
Qed.

Print Assumptions C105_format_partial.
Print Assumptions C105_zero_refuted.
Print Assumptions C105_only_numerals.
Print Assumptions C105_empty.
Print Assumptions C105_value.
Print Assumptions C105_length.
