(** The scanner reads literals, comments, names and strings as the language defines them (C35-C38). *)
From Coq Require Import String Ascii.
From Verif Require Import Base ArithModel OpsModel.
Open Scope Z_scope.
Open Scope list_scope.

(** ** Scanning a text *)
(** The next token of a text: the scanner stands on its first character. *)
Definition scan (text : list Z) : res result := let '(ch, l) := OGet text in Get (length text + 2) ch l [].

(** ** Specification: numbers *)
Definition digit (c : Z) : Prop := 48 <= c <= 57.
Definition hexdigit (c : Z) : Prop := 48 <= c <= 57 \/ 65 <= c <= 70.
Definition dval (c : Z) : Z := if c <=? 57 then c - 48 else c - 55.
(** The value of a digit string in base b. *)
Fixpoint value (b : Z) (ds : list Z) : Z := match ds with [] => 0 | c :: r => dval c * b ^ Z.of_nat (length r) + value b r end.
(** What follows an integer literal without suffix: the end of the text, two points, or a character that cannot belong to a number. *)
Definition ends_number (rest : list Z) : Prop :=
  match rest with
  | [] => True
  | c :: r => (~ hexdigit c /\ c <> 46 /\ c <> 72 /\ c <> 88) \/ (c = 46 /\ exists r', r = 46 :: r')
  end.
(** The scanner stands at the start of rest.  Two points that follow a number are held as one character, 7FX. *)
Definition stands (ch : Z) (l rest : list Z) : Prop := (ch, l) = OGet rest \/ (exists r, rest = 46 :: 46 :: r /\ ch = 127 /\ l = r).

(** ** The mantissa *)
Definition step (st : list Z * Z) (ch : Z) : list Z * Z :=
  let '(dig, m) := st in if (m >? 0) || negb (ch =? 48) then (if Z.of_nat (length dig) <? 24 then dig ++ [ch] else dig, wrap_s 16 (m + 1)) else (dig, m).
Lemma OGet_hex : forall c r, hexdigit c -> OGet (c :: r) = (c, r).
Proof. intros c r H. unfold OGet, hexdigit in *. destruct (Z.ltb_spec c 9); [lia | reflexivity]. Qed.
Definition stop (ch : Z) : Prop := ~ hexdigit ch /\ ch <> 46.
Lemma mant_stop : forall l ch i m dig e, stop ch -> mant l ch i m 0 dig e = (i, m, 0, dig, e, ch, l).
Proof.
  intros l ch i m dig e [H1 H2]. unfold hexdigit in H1. destruct l; cbn [mant];
  (replace ((48 <=? ch) && (ch <=? 57) || (0 =? 0) && (65 <=? ch) && (ch <=? 70)) with false
    by (destruct (Z.leb_spec 48 ch), (Z.leb_spec ch 57), (Z.leb_spec 65 ch), (Z.leb_spec ch 70); cbn; try reflexivity; lia));
  (destruct (Z.eqb_spec ch 46); [lia | reflexivity]).
Qed.
Lemma mant_dots : forall r i m dig e, mant (46 :: r) 46 i m 0 dig e = (i, m, 0, dig, e, 127, r).
Proof. reflexivity. Qed.
Definition after (rest : list Z) (ch : Z) (l : list Z) : Prop :=
  (OGet rest = (ch, l) /\ stop ch) \/ (exists r, rest = 46 :: 46 :: r /\ ch = 127 /\ l = r).
Lemma mant_digits : forall ds rest ch l, Forall hexdigit ds -> after rest ch l -> forall c0 l0 i m dig e, OGet (ds ++ rest) = (c0, l0) ->
  exists i', mant l0 c0 i m 0 dig e = (i', snd (fold_left step ds (dig, m)), 0, fst (fold_left step ds (dig, m)), e, ch, l).
Proof.
  induction ds as [| d ds IH]; intros rest ch l HF HA c0 l0 i m dig e HO.
  - cbn [app] in HO. cbn [fold_left fst snd]. exists i. destruct HA as [[HA Hs] | (r & -> & -> & ->)].
    + rewrite HA in HO. injection HO as <- <-. apply mant_stop, Hs.
    + cbn in HO. injection HO as <- <-. apply mant_dots.
  - inversion HF as [| ? ? Hd HF']; subst. cbn [app] in HO. rewrite OGet_hex in HO by exact Hd. injection HO as <- <-.
    cbn [fold_left]. destruct (OGet (ds ++ rest)) as [c1 l1] eqn:E.
    assert (Hc : (48 <=? d) && (d <=? 57) || (0 =? 0) && (65 <=? d) && (d <=? 70) = true)
      by (unfold hexdigit in Hd; destruct (Z.leb_spec 48 d), (Z.leb_spec d 57), (Z.leb_spec 65 d), (Z.leb_spec d 70); cbn; try reflexivity; lia).
    specialize (IH rest ch l HF' HA c1 l1 (wrap_s 16 (i + 1)) (snd (step (dig, m) d)) (fst (step (dig, m) d)) e E).
    destruct IH as (i' & IH). rewrite <- surjective_pairing in IH. exists i'. rewrite <- IH.
    unfold step. destruct (ds ++ rest) as [| c r] eqn:E2; cbn [mant]; rewrite Hc.
    + cbn in E. injection E as <- <-. destruct ((m >? 0) || negb (d =? 48)); cbn [fst snd]; symmetry; (rewrite mant_stop; [reflexivity | unfold stop, hexdigit; lia]).
    + unfold OGet in E. injection E as <- <-. destruct ((m >? 0) || negb (d =? 48)); reflexivity.
Qed.

(** The digits kept are the first 24 significant ones, and m is their number unless it wraps. *)
Fixpoint strip (ds : list Z) : list Z := match ds with [] => [] | c :: r => if c =? 48 then strip r else c :: r end.
Lemma strip_snoc : forall ds c, strip (ds ++ [c]) = match strip ds with [] => if c =? 48 then [] else [c] | x :: r => (x :: r) ++ [c] end.
Proof. induction ds as [| d ds IH]; intros c; cbn [app strip]; [reflexivity |]. destruct (d =? 48); [apply IH | reflexivity]. Qed.
Lemma firstn_snoc : forall (l : list Z) c n, firstn n (l ++ [c]) = if Nat.ltb (length l) n then l ++ [c] else firstn n l.
Proof.
  induction l as [| x l IH]; intros c n; destruct n; cbn [firstn app length]; try reflexivity; [destruct n; reflexivity |].
  rewrite IH. change (Nat.ltb (S (length l)) (S n)) with (Nat.ltb (length l) n). destruct (Nat.ltb (length l) n); reflexivity.
Qed.
Lemma fold_step : forall ds, let r := fold_left step ds ([], 0) in
  fst r = firstn 24 (strip ds) /\ (Z.of_nat (length (strip ds)) <= 32767 -> snd r = Z.of_nat (length (strip ds))).
Proof.
  induction ds as [| c ds IH] using rev_ind; cbv zeta in *; [cbn; auto |].
  rewrite fold_left_app. cbn [fold_left]. destruct (fold_left step ds ([], 0)) as [dig m]. cbn [fst snd] in IH. destruct IH as [H1 H2]. subst dig.
  rewrite strip_snoc. unfold step. rewrite firstn_length. destruct (strip ds) as [| x s] eqn:Es.
  - cbn [length] in *. specialize (H2 ltac:(lia)). subst m. cbn. destruct (c =? 48); cbn; auto.
  - rewrite firstn_snoc, app_length. cbn [length]. cbn [length] in H2. split.
    + destruct (Nat.ltb_spec (S (length s)) 24) as [L | L].
      * specialize (H2 ltac:(lia)). destruct (Z.gtb_spec m 0); [cbn [orb] | lia]. destruct (Z.ltb_spec (Z.of_nat (Nat.min 24 (S (length s)))) 24); [cbn [fst] | lia].
        rewrite firstn_all2 by (cbn [length]; lia). reflexivity.
      * destruct (Z.ltb_spec (Z.of_nat (Nat.min 24 (S (length s)))) 24); [lia |]. destruct ((m >? 0) || negb (c =? 48)); reflexivity.
    + intros L. specialize (H2 ltac:(lia)). destruct (Z.gtb_spec m 0); [cbn [orb snd] | lia]. rewrite wrap_s_id; [lia | lia | unfold in_int; change (2 ^ (16 - 1)) with 32768; lia].
Qed.

(** Values. *)
Lemma dval_hex : forall c, hexdigit c -> 0 <= dval c <= 15.
Proof. intros c H. unfold dval, hexdigit in *. destruct (Z.leb_spec c 57); lia. Qed.
Lemma dval_dec : forall c, digit c -> 0 <= dval c <= 9.
Proof. intros c H. unfold dval, digit in *. destruct (Z.leb_spec c 57); lia. Qed.
Lemma value_range : forall b ds, 1 < b -> Forall (fun c => 0 <= dval c < b) ds -> 0 <= value b ds < b ^ Z.of_nat (length ds).
Proof.
  intros b ds Hb H. induction H as [| c r Hc HF IH]; [cbn; lia |]. cbn [value length]. rewrite Nat2Z.inj_succ, Z.pow_succ_r by lia.
  assert (0 < b ^ Z.of_nat (length r)) by (apply Z.pow_pos_nonneg; lia). nia.
Qed.
Lemma value_strip : forall b ds, value b (strip ds) = value b ds.
Proof. intros b. induction ds as [| c r IH]; [reflexivity |]. cbn [strip]. destruct (Z.eqb_spec c 48) as [-> | N]; [| reflexivity]. rewrite IH. cbn [value]. change (dval 48) with 0. lia. Qed.
Lemma strip_forall : forall (P : Z -> Prop) ds, Forall P ds -> Forall P (strip ds).
Proof. intros P ds H. induction H as [| c r Hc HF IH]; cbn [strip]; [constructor |]. destruct (c =? 48); [exact IH | constructor; assumption]. Qed.
Lemma strip_head : forall ds c r, Forall hexdigit ds -> strip ds = c :: r -> 1 <= dval c.
Proof.
  induction ds as [| d ds IH]; intros c r HF E; cbn [strip] in E; [discriminate |]. inversion HF; subst. destruct (Z.eqb_spec d 48); [eapply IH; eassumption |].
  injection E as -> ->. unfold dval, hexdigit in *. destruct (Z.leb_spec c 57); lia.
Qed.
Lemma value_big : forall b ds k, 1 < b -> Forall hexdigit ds -> Forall (fun c => 0 <= dval c < b) ds -> (k < length (strip ds))%nat -> b ^ Z.of_nat k <= value b ds.
Proof.
  intros b ds k Hb HF H L. rewrite <- value_strip. destruct (strip ds) as [| c r] eqn:E; [cbn in L; lia |].
  pose proof (strip_head _ _ _ HF E) as Hc. cbn [value length] in *. pose proof (strip_forall _ _ H) as H'. rewrite E in H'. inversion H'; subst.
  pose proof (value_range b r Hb H3). assert (b ^ Z.of_nat k <= b ^ Z.of_nat (length r)) by (apply Z.pow_le_mono_r; lia). nia.
Qed.
Lemma hex_small : forall ds, Forall hexdigit ds -> Forall (fun c => 0 <= dval c < 16) ds.
Proof. intros ds H. eapply Forall_impl; [| exact H]. intros c Hc. pose proof (dval_hex c Hc). lia. Qed.
Lemma dec_small : forall ds, Forall digit ds -> Forall (fun c => 0 <= dval c < 10) ds.
Proof. intros ds H. eapply Forall_impl; [| exact H]. intros c Hc. pose proof (dval_dec c Hc). lia. Qed.
Lemma dec_hex : forall ds, Forall digit ds -> Forall hexdigit ds.
Proof. intros ds H. eapply Forall_impl; [| exact H]. intros c Hc. left. exact Hc. Qed.

Lemma in64 : forall x, - (9223372036854775808) <= x < 9223372036854775808 -> in_int 64 x.
Proof. intros x H. unfold in_int. change (2 ^ (64 - 1)) with 9223372036854775808. lia. Qed.
Lemma chk64 : forall x, - (9223372036854775808) <= x < 9223372036854775808 -> chk 64 x = Ok x.
Proof. intros x H. unfold chk. rewrite (proj2 (in_intb_iff 64 x) (in64 x H)). reflexivity. Qed.
Lemma Ord_hex : forall c, hexdigit c -> fst (Ord c true) = dval c.
Proof. intros c H. unfold Ord, dval. destruct (Z.leb_spec c 57); cbn [fst]; lia. Qed.
Lemma hexval_spec : forall ds v, Forall hexdigit ds -> - (9223372036854775808) <= v * 16 ^ Z.of_nat (length ds) -> (v + 1) * 16 ^ Z.of_nat (length ds) <= 9223372036854775808 ->
  hexval ds v = Ok (v * 16 ^ Z.of_nat (length ds) + value 16 ds).
Proof.
  induction ds as [| c ds IH]; intros v HF L U; cbn [hexval value length] in *; [f_equal; change (16 ^ Z.of_nat 0) with 1; lia |].
  inversion HF; subst. pose proof (dval_hex c H1). rewrite Nat2Z.inj_succ, Z.pow_succ_r in * by lia.
  assert (1 <= 16 ^ Z.of_nat (length ds)) by (pose proof (Z.pow_pos_nonneg 16 (Z.of_nat (length ds)) ltac:(lia) ltac:(lia)); lia).
  rewrite chk64 by nia. cbn [bind]. rewrite Ord_hex, chk64 by (auto; nia). cbn [bind]. rewrite IH by (auto; nia). f_equal. ring.
Qed.
Lemma bind_inv : forall A B (m : res A) (k : A -> res B) b, bind m k = Ok b -> exists a, m = Ok a /\ k a = Ok b.
Proof. intros A B [a | c | |] k b H; cbn in H; try discriminate. eauto. Qed.
Lemma decval_mono : forall ds v errs r e, decval ds v errs = Ok (r, e) -> exists x, e = errs ++ x.
Proof.
  induction ds as [| c ds IH]; intros v errs r e H; cbn [decval] in H.
  - injection H as <- <-. exists []. symmetry; apply app_nil_r.
  - unfold Ord in H. destruct (c <=? 57); cbn beta iota zeta in H.
    + rewrite app_nil_r in H. destruct (v <=? (2 ^ 63 - 1 - (c - 48)) / 10).
      * apply bind_inv in H as (p & _ & H). apply bind_inv in H as (q & _ & H). eapply IH; exact H.
      * apply IH in H as (x & ->). rewrite <- app_assoc. eexists; reflexivity.
    + destruct (v <=? (2 ^ 63 - 1 - 0) / 10).
      * apply bind_inv in H as (p & _ & H). apply bind_inv in H as (q & _ & H). apply IH in H as (x & ->). rewrite <- app_assoc. eexists; reflexivity.
      * apply IH in H as (x & ->). rewrite <- !app_assoc. eexists; reflexivity.
Qed.
Lemma decval_total : forall ds v errs, Forall hexdigit ds -> 0 <= v <= 9223372036854775807 -> exists r e, decval ds v errs = Ok (r, e).
Proof.
  induction ds as [| c ds IH]; intros v errs HF Hv; cbn [decval]; [eauto |]. inversion HF as [| ? ? Hc HF']; subst.
  assert (exists d x, Ord c false = (d, x) /\ 0 <= d <= 9) as (d & x & -> & Hd).
  { unfold Ord, hexdigit in *. destruct (Z.leb_spec c 57); do 2 eexists; (split; [reflexivity | lia]). }
  change (2 ^ 63 - 1) with 9223372036854775807. destruct (Z.leb_spec v ((9223372036854775807 - d) / 10)); [| apply IH; assumption].
  rewrite chk64 by lia. cbn [bind]. rewrite chk64 by lia. cbn [bind]. apply IH; [assumption | lia].
Qed.
Lemma decval_exact : forall ds v errs, Forall digit ds -> 0 <= v -> v * 10 ^ Z.of_nat (length ds) + value 10 ds <= 9223372036854775807 ->
  decval ds v errs = Ok (v * 10 ^ Z.of_nat (length ds) + value 10 ds, errs).
Proof.
  induction ds as [| c ds IH]; intros v errs HF Hv Hm; cbn [decval value length] in *; [do 2 f_equal; change (10 ^ Z.of_nat 0) with 1; lia |].
  inversion HF as [| ? ? Hc HF']; subst. pose proof (dval_dec c Hc). rewrite Nat2Z.inj_succ, Z.pow_succ_r in * by lia.
  assert (1 <= 10 ^ Z.of_nat (length ds)) by (pose proof (Z.pow_pos_nonneg 10 (Z.of_nat (length ds)) ltac:(lia) ltac:(lia)); lia).
  pose proof (value_range 10 ds ltac:(lia) (dec_small _ HF')).
  assert (E : Ord c false = (dval c, [])) by (unfold Ord, dval, digit in *; destruct (Z.leb_spec c 57); [reflexivity | lia]). rewrite E, app_nil_r.
  assert (v * 10 + dval c <= 9223372036854775807) by nia. change (2 ^ 63 - 1) with 9223372036854775807.
  destruct (Z.leb_spec v ((9223372036854775807 - dval c) / 10)); [| lia]. rewrite chk64 by lia. cbn [bind]. rewrite chk64 by lia. cbn [bind].
  rewrite IH; [do 2 f_equal; ring | assumption | lia | nia].
Qed.
Lemma decval_over : forall ds v errs r e, Forall digit ds -> 0 <= v <= 9223372036854775807 -> 9223372036854775807 < v * 10 ^ Z.of_nat (length ds) + value 10 ds ->
  decval ds v errs = Ok (r, e) -> e <> errs.
Proof.
  induction ds as [| c ds IH]; intros v errs r e HF Hv Hm H; cbn [decval value length] in *; [change (10 ^ Z.of_nat 0) with 1 in Hm; lia |].
  inversion HF as [| ? ? Hc HF']; subst. pose proof (dval_dec c Hc). rewrite Nat2Z.inj_succ, Z.pow_succ_r in * by lia.
  assert (E : Ord c false = (dval c, [])) by (unfold Ord, dval, digit in *; destruct (Z.leb_spec c 57); [reflexivity | lia]). rewrite E, app_nil_r in H.
  change (2 ^ 63 - 1) with 9223372036854775807 in H. destruct (Z.leb_spec v ((9223372036854775807 - dval c) / 10)).
  - rewrite chk64 in H by lia. cbn [bind] in H. rewrite chk64 in H by lia. cbn [bind] in H. eapply IH; [exact HF' | | | exact H]; [lia |]. nia.
  - apply decval_mono in H as (x & ->). rewrite <- app_assoc. intros C. rewrite <- (app_nil_r errs) in C at 2. apply app_inv_head in C. discriminate.
Qed.
Lemma decval_letter : forall ds v errs r e, ~ Forall digit ds -> Forall hexdigit ds -> decval ds v errs = Ok (r, e) -> e <> errs.
Proof.
  induction ds as [| c ds IH]; intros v errs r e HN HF H; [exfalso; apply HN; constructor |]. inversion HF as [| ? ? Hc HF']; subst. cbn [decval] in H.
  assert (G2 : forall y z, y <> [] -> e = errs ++ y ++ z -> e <> errs).
  { intros y z Hy -> C. rewrite <- (app_nil_r errs) in C at 2. apply app_inv_head in C. destruct y; [congruence | discriminate]. }
  unfold Ord in H. destruct (Z.leb_spec c 57); cbn beta iota zeta in H.
  - rewrite app_nil_r in H. assert (HN' : ~ Forall digit ds) by (intros C; apply HN; constructor; [unfold digit, hexdigit in *; lia | exact C]).
    destruct (v <=? (2 ^ 63 - 1 - (c - 48)) / 10).
    + apply bind_inv in H as (p & _ & H). apply bind_inv in H as (q & _ & H). eapply IH; eassumption.
    + apply decval_mono in H as (x & ->). eapply G2; [| rewrite <- app_assoc; reflexivity]. discriminate.
  - destruct (v <=? (2 ^ 63 - 1 - 0) / 10).
    + apply bind_inv in H as (p & _ & H). apply bind_inv in H as (q & _ & H). apply decval_mono in H as (x & ->). eapply G2; [| rewrite <- app_assoc; reflexivity]. discriminate.
    + apply decval_mono in H as (x & ->). apply (G2 [2] ([203] ++ x)); [discriminate | rewrite <- !app_assoc; reflexivity].
Qed.

(** What Number does with a digit string. *)
Lemma Number_split : forall ds rest ch l c0 l0, Forall hexdigit ds -> after rest ch l -> OGet (ds ++ rest) = (c0, l0) ->
  exists i m, mant l0 c0 0 0 0 [] [] = (i, m, 0, firstn 24 (strip ds), [], ch, l) /\ (Z.of_nat (length (strip ds)) <= 32767 -> m = Z.of_nat (length (strip ds))).
Proof.
  intros ds rest ch l c0 l0 HF HA HO. destruct (mant_digits ds rest ch l HF HA c0 l0 0 0 [] [] HO) as (i & E). destruct (fold_step ds) as [F1 F2].
  do 2 eexists. split; [rewrite E, F1; reflexivity | exact F2].
Qed.
Lemma app_ne : forall (e : list Z) x, e ++ [x] <> [].
Proof. intros e x. destruct e; discriminate. Qed.
Definition signed64 (v : Z) : Z := if v <? 9223372036854775808 then v else v - 18446744073709551616.
Lemma hexval16 : forall ds, Forall hexdigit ds -> (length ds <= 16)%nat -> (forall c r, ds = c :: r -> 1 <= dval c) ->
  hexval ds (if (Z.of_nat (length ds) =? 16) && (match ds with c :: _ => c >? 55 | [] => false end) then -1 else 0) = Ok (signed64 (value 16 ds)).
Proof.
  intros ds HF L Hh. pose proof (value_range 16 ds ltac:(lia) (hex_small _ HF)) as HV. unfold signed64.
  destruct (Z.eqb_spec (Z.of_nat (length ds)) 16) as [E | N]; cbn [andb].
  - destruct ds as [| c r]; [discriminate |]. inversion HF as [| ? ? Hc HF']; subst. cbn [length] in E. assert (El : Z.of_nat (length r) = 15) by lia.
    pose proof (value_range 16 r ltac:(lia) (hex_small _ HF')) as HR. pose proof (dval_hex c Hc). cbn [value] in *. rewrite El in *. change (16 ^ 15) with 1152921504606846976 in *.
    destruct (Z.gtb_spec c 55) as [G | G].
    + assert (8 <= dval c) by (unfold dval, hexdigit in *; destruct (Z.leb_spec c 57); lia). cbn [hexval]. rewrite chk64 by lia. cbn [bind]. rewrite Ord_hex, chk64 by (auto; lia). cbn [bind].
      rewrite hexval_spec by (rewrite ?El; change (16 ^ 15) with 1152921504606846976; auto; lia). rewrite El. change (16 ^ 15) with 1152921504606846976.
      destruct (Z.ltb_spec (dval c * 1152921504606846976 + value 16 r) 9223372036854775808); f_equal; lia.
    + assert (dval c <= 7) by (unfold dval, hexdigit in *; destruct (Z.leb_spec c 57); lia). cbn [hexval]. rewrite chk64 by lia. cbn [bind]. rewrite Ord_hex, chk64 by (auto; lia). cbn [bind].
      rewrite hexval_spec by (rewrite ?El; change (16 ^ 15) with 1152921504606846976; auto; lia). rewrite El. change (16 ^ 15) with 1152921504606846976.
      destruct (Z.ltb_spec (dval c * 1152921504606846976 + value 16 r) 9223372036854775808); f_equal; lia.
  - assert (16 ^ Z.of_nat (length ds) <= 16 ^ 15) by (apply Z.pow_le_mono_r; lia). change (16 ^ 15) with 1152921504606846976 in *.
    rewrite hexval_spec by (auto; lia). destruct (Z.ltb_spec (value 16 ds) 9223372036854775808); f_equal; lia.
Qed.
Lemma firstn_len : forall (s : list Z), (length s <= 24)%nat -> firstn 24 s = s.
Proof. intros s L. apply firstn_all2, L. Qed.

Lemma Number_X : forall ds rest c0 l0, Forall hexdigit ds -> OGet (ds ++ 88 :: rest) = (c0, l0) -> exists t e ch l, Number c0 l0 = Ok (t, e, ch, l) /\
  (value 16 ds < 256 -> t = TChar (value 16 ds) /\ e = [] /\ (ch, l) = OGet rest) /\ (256 <= value 16 ds -> e <> []).
Proof.
  intros ds rest c0 l0 HF HO. destruct (Number_split ds (88 :: rest) 88 rest c0 l0 HF ltac:(left; split; [reflexivity | unfold stop, hexdigit; lia]) HO) as (i & m & E & Hm).
  unfold Number. rewrite E. cbn beta iota zeta. change (0 =? 0) with true. cbn beta iota zeta. destruct (OGet rest) as [ch l] eqn:EO. change (88 =? 88) with true. cbn beta iota zeta.
  pose proof (value_range 16 (strip ds) ltac:(lia) (hex_small _ (strip_forall _ _ HF))) as HV. rewrite value_strip in HV.
  destruct (le_lt_dec (length (strip ds)) 24) as [L | L].
  - rewrite firstn_len by exact L. rewrite (Hm ltac:(lia)), Z.eqb_refl. destruct (Z.leb_spec (Z.of_nat (length (strip ds))) 2) as [L2 | L2].
    + assert (16 ^ Z.of_nat (length (strip ds)) <= 16 ^ 2) by (apply Z.pow_le_mono_r; lia). change (16 ^ 2) with 256 in *.
      rewrite hexval_spec by (auto using strip_forall; lia). cbn [bind]. do 4 eexists. split; [reflexivity |]. rewrite value_strip. split; [intros _; split; [f_equal; lia | auto] | lia].
    + do 4 eexists. split; [reflexivity |]. pose proof (value_big 16 ds 2 ltac:(lia) HF (hex_small _ HF) ltac:(lia)) as B. change (16 ^ Z.of_nat 2) with 256 in B. split; [lia | intros _; discriminate].
  - pose proof (value_big 16 ds 24 ltac:(lia) HF (hex_small _ HF) L) as B. change (16 ^ Z.of_nat 24) with 79228162514264337593543950336 in B.
    rewrite firstn_length, Nat.min_l by lia. destruct (Z.of_nat 24 =? m); do 4 eexists; (split; [reflexivity |]); (split; [lia | intros _; discriminate]).
Qed.
Lemma Number_H : forall ds rest c0 l0, Forall hexdigit ds -> OGet (ds ++ 72 :: rest) = (c0, l0) -> exists t e ch l, Number c0 l0 = Ok (t, e, ch, l) /\
  (value 16 ds < 18446744073709551616 -> t = TInt (signed64 (value 16 ds)) /\ e = [] /\ (ch, l) = OGet rest) /\ (18446744073709551616 <= value 16 ds -> e <> []).
Proof.
  intros ds rest c0 l0 HF HO. destruct (Number_split ds (72 :: rest) 72 rest c0 l0 HF ltac:(left; split; [reflexivity | unfold stop, hexdigit; lia]) HO) as (i & m & E & Hm).
  unfold Number. rewrite E. cbn beta iota zeta. change (0 =? 0) with true. cbn beta iota zeta. destruct (OGet rest) as [ch l] eqn:EO. change (72 =? 88) with false. change (72 =? 72) with true. cbn beta iota zeta.
  pose proof (value_range 16 (strip ds) ltac:(lia) (hex_small _ (strip_forall _ _ HF))) as HV. rewrite value_strip in HV.
  destruct (le_lt_dec (length (strip ds)) 24) as [L | L].
  - rewrite firstn_len by exact L. rewrite (Hm ltac:(lia)), Z.eqb_refl. destruct (Z.leb_spec (Z.of_nat (length (strip ds))) 16) as [L2 | L2].
    + assert (16 ^ Z.of_nat (length (strip ds)) <= 16 ^ 16) by (apply Z.pow_le_mono_r; lia). change (16 ^ 16) with 18446744073709551616 in *.
      rewrite hexval16; [| auto using strip_forall | lia | intros c r; apply strip_head, HF]. cbn [bind]. do 4 eexists. split; [reflexivity |]. rewrite value_strip. split; [auto | lia].
    + do 4 eexists. split; [reflexivity |]. pose proof (value_big 16 ds 16 ltac:(lia) HF (hex_small _ HF) ltac:(lia)) as B. change (16 ^ Z.of_nat 16) with 18446744073709551616 in B.
      split; [lia | intros _; discriminate].
  - pose proof (value_big 16 ds 24 ltac:(lia) HF (hex_small _ HF) L) as B. change (16 ^ Z.of_nat 24) with 79228162514264337593543950336 in B.
    rewrite firstn_length, Nat.min_l by lia. destruct (Z.of_nat 24 =? m); do 4 eexists; (split; [reflexivity |]); (split; [lia | intros _; discriminate]).
Qed.
Lemma ends_after : forall rest, ends_number rest -> exists ch l, after rest ch l /\ stands ch l rest /\ ch <> 88 /\ ch <> 72.
Proof.
  intros [| c r] H.
  - exists 0, []. unfold after, stands, stop, hexdigit. split; [left; split; [reflexivity | lia] | split; [left; reflexivity | lia]].
  - destruct H as [(H1 & H2 & H3 & H4) | (-> & r' & ->)].
    + destruct (OGet (c :: r)) as [ch l] eqn:E. exists ch, l. assert (ch = c \/ ch = 32) by (unfold OGet in E; destruct (c <? 9); injection E as <- <-; auto).
      unfold after, stands, stop. split; [left; split; [exact E |] | split; [left; symmetry; exact E |]]; destruct H as [-> | ->]; unfold hexdigit in *; (split; [try assumption; lia | try assumption; lia]) || lia.
    + exists 127, r'. split; [right; eauto | split; [right; eauto | lia]].
Qed.
Lemma Number_D : forall ds rest c0 l0, Forall hexdigit ds -> ends_number rest -> OGet (ds ++ rest) = (c0, l0) -> exists t e ch l, Number c0 l0 = Ok (t, e, ch, l) /\
  (Forall digit ds -> value 10 ds <= 9223372036854775807 -> t = TInt (value 10 ds) /\ e = [] /\ stands ch l rest) /\
  (~ Forall digit ds -> e <> []) /\ (9223372036854775807 < value 10 ds -> e <> []).
Proof.
  intros ds rest c0 l0 HF HE HO. destruct (ends_after rest HE) as (ch & l & HA & HS & N1 & N2).
  destruct (Number_split ds rest ch l c0 l0 HF HA HO) as (i & m & E & Hm). unfold Number. rewrite E. cbn beta iota zeta. change (0 =? 0) with true. cbn beta iota zeta.
  destruct (Z.eqb_spec ch 88); [lia |]. destruct (Z.eqb_spec ch 72); [lia |].
  assert (HFs : Forall hexdigit (firstn 24 (strip ds))).
  { pose proof (strip_forall _ _ HF) as H. rewrite <- (firstn_skipn 24) in H. apply Forall_app in H. apply H. }
  assert (SD : Forall digit (strip ds) -> Forall digit ds).
  { clear. induction ds as [| c r IH]; intros H; [constructor |]. cbn [strip] in H. destruct (Z.eqb_spec c 48) as [-> |]; [constructor; [unfold digit; lia | auto] | exact H]. }
  destruct (decval_total (firstn 24 (strip ds)) 0 [] HFs ltac:(lia)) as (v & e & ED).
  assert (DN : ~ Forall digit (firstn 24 (strip ds)) -> e <> []) by (intros HN; eapply decval_letter; eassumption).
  destruct (le_lt_dec (length (strip ds)) 24) as [L | L].
  - rewrite firstn_len in * by exact L. rewrite (Hm ltac:(lia)), Z.eqb_refl, ED. cbn [bind]. do 4 eexists. split; [reflexivity |]. split; [| split].
    + intros HD HV. pose proof (decval_exact (strip ds) 0 [] (strip_forall _ _ HD) ltac:(lia)) as X. rewrite value_strip, Z.mul_0_l, Z.add_0_l in X.
      rewrite X in ED by exact HV. injection ED as <- <-. auto.
    + intros HN. apply DN. intros C. apply HN, SD, C.
    + intros HV. destruct (Forall_dec digit ltac:(intros x; unfold digit; destruct (Z_le_dec 48 x), (Z_le_dec x 57); [left; lia | right; lia ..]) (strip ds)) as [D | D]; [| apply DN, D].
      eapply (decval_over (strip ds) 0 [] v e D); [lia | rewrite value_strip; lia | exact ED].
  - assert (EN : 9223372036854775807 < value 10 ds \/ ~ Forall digit ds -> e <> []).
    { intros _. destruct (Forall_dec digit ltac:(intros x; unfold digit; destruct (Z_le_dec 48 x), (Z_le_dec x 57); [left; lia | right; lia ..]) (firstn 24 (strip ds))) as [D | D]; [| apply DN, D].
      eapply (decval_over _ 0 [] v e D); [lia | | exact ED]. destruct (strip ds) as [| c r] eqn:Es; [cbn in L; lia |]. pose proof (strip_head _ _ _ HF Es) as Hc.
      change (firstn 24 (c :: r)) with (c :: firstn 23 r) in *. cbn [value]. rewrite firstn_length. cbn [length] in L. rewrite Nat.min_l by lia.
      pose proof (value_range 10 _ ltac:(lia) (dec_small _ (Forall_inv_tail D))). change (10 ^ Z.of_nat 23) with 100000000000000000000000. rewrite Z.mul_0_l. nia. }
    assert (VB : Forall digit ds -> 9223372036854775807 < value 10 ds).
    { intros D. pose proof (value_big 10 ds 24 ltac:(lia) HF (dec_small _ D) L) as B. change (10 ^ Z.of_nat 24) with 1000000000000000000000000 in B. lia. }
    destruct (Z.of_nat (length (firstn 24 (strip ds))) =? m).
    + rewrite ED. cbn [bind]. do 4 eexists. split; [reflexivity |]. split; [intros D V; specialize (VB D); lia | split; intros; apply EN; auto].
    + do 4 eexists. split; [reflexivity |]. split; [intros D V; specialize (VB D); lia | split; intros; discriminate].
Qed.

(** ** Get on the first character *)
Lemma skipws_stop : forall l ch, 32 < ch \/ ch = 0 -> skipws l ch = (ch, l).
Proof. intros l ch H. destruct l; cbn [skipws]; unfold Eot; destruct (Z.leb_spec ch 32), (Z.eqb_spec ch 0); cbn; try reflexivity; lia. Qed.
Lemma Get_digit : forall f ch l, digit ch -> Get (S f) ch l [] = Number ch l.
Proof.
  intros f ch l H. unfold digit in H. cbn [Get]. rewrite skipws_stop by lia. unfold Eot.
  destruct (Z.eqb_spec ch 0); [lia |]. destruct (Z.eqb_spec ch 34); [lia |]. destruct (Z.eqb_spec ch 39); [lia |]. cbn [orb]. destruct (Z.eqb_spec ch 40); [lia |].
  destruct (Z.eqb_spec ch 46); [lia |]. destruct (Z.eqb_spec ch 58); [lia |]. destruct (Z.eqb_spec ch 60); [lia |]. destruct (Z.eqb_spec ch 62); [lia |].
  destruct (Z.leb_spec 48 ch), (Z.leb_spec ch 57); try lia. cbn [andb]. destruct (Number ch l) as [[[[t e] c] r] | | |]; reflexivity.
Qed.
Lemma scan_digit : forall c r, digit c -> scan (c :: r) = Number c r.
Proof. intros c r H. unfold scan. rewrite OGet_hex by (left; exact H). change (length (c :: r) + 2)%nat with (S (length r + 2)). apply Get_digit, H. Qed.

(** ** C35: integer literals *)
(** A decimal literal has its value if that is at most MAX(LONGINT), otherwise an error is reported; the scanner stands behind the literal. *)
Theorem C35_decimal : forall c ds rest, Forall digit (c :: ds) -> ends_number rest -> exists t e ch l, scan ((c :: ds) ++ rest) = Ok (t, e, ch, l) /\
  (value 10 (c :: ds) <= 2 ^ 63 - 1 -> t = TInt (value 10 (c :: ds)) /\ e = [] /\ stands ch l rest) /\ (value 10 (c :: ds) > 2 ^ 63 - 1 -> e <> []).
Proof.
  intros c ds rest HD HE. pose proof (dec_hex _ HD) as HF. inversion HD as [| ? ? Hc HD']; subst. cbn [app]. rewrite scan_digit by exact Hc.
  destruct (Number_D (c :: ds) rest c (ds ++ rest) HF HE (OGet_hex c (ds ++ rest) ltac:(left; exact Hc))) as (t & e & ch & l & E & H1 & _ & H3).
  exists t, e, ch, l. split; [exact E |]. change (2 ^ 63 - 1) with 9223372036854775807. split; [auto |]. intros HV. apply H3. lia.
Qed.
(** A digit string with hexadecimal digits and no suffix is an error. *)
Theorem C35_missing_suffix : forall c ds rest, digit c -> Forall hexdigit (c :: ds) -> ~ Forall digit (c :: ds) -> ends_number rest ->
  exists t e ch l, scan ((c :: ds) ++ rest) = Ok (t, e, ch, l) /\ e <> [].
Proof.
  intros c ds rest Hc HF HN HE. cbn [app]. rewrite scan_digit by exact Hc.
  destruct (Number_D (c :: ds) rest c (ds ++ rest) HF HE (OGet_hex c (ds ++ rest) ltac:(left; exact Hc))) as (t & e & ch & l & E & _ & H2 & _). eauto 8.
Qed.
(** A hexadecimal literal below 2^63 has its value, from 2^64 on it is an error. *)
Theorem C35_hexadecimal : forall c ds rest, digit c -> Forall hexdigit (c :: ds) -> exists t e ch l, scan ((c :: ds) ++ 72 :: rest) = Ok (t, e, ch, l) /\
  (value 16 (c :: ds) < 2 ^ 63 -> t = TInt (value 16 (c :: ds)) /\ e = [] /\ (ch, l) = OGet rest) /\
  (2 ^ 63 <= value 16 (c :: ds) < 2 ^ 64 -> t = TInt (value 16 (c :: ds) - 2 ^ 64) /\ e = [] /\ (ch, l) = OGet rest) /\
  (value 16 (c :: ds) >= 2 ^ 64 -> e <> []).
Proof.
  intros c ds rest Hc HF. cbn [app]. rewrite scan_digit by exact Hc.
  destruct (Number_H (c :: ds) rest c (ds ++ 72 :: rest) HF (OGet_hex c _ ltac:(left; exact Hc))) as (t & e & ch & l & E & H1 & H2).
  exists t, e, ch, l. split; [exact E |]. change (2 ^ 63) with 9223372036854775808. change (2 ^ 64) with 18446744073709551616. unfold signed64 in H1. split; [| split].
  - intros HV. destruct H1 as (-> & -> & ->); [lia |]. destruct (Z.ltb_spec (value 16 (c :: ds)) 9223372036854775808); [auto | lia].
  - intros HV. destruct H1 as (-> & -> & ->); [lia |]. destruct (Z.ltb_spec (value 16 (c :: ds)) 9223372036854775808); [lia | auto].
  - intros HV. apply H2. lia.
Qed.
(** A character literal below 100X has its value, others are an error. *)
Theorem C35_character : forall c ds rest, digit c -> Forall hexdigit (c :: ds) -> exists t e ch l, scan ((c :: ds) ++ 88 :: rest) = Ok (t, e, ch, l) /\
  (value 16 (c :: ds) < 256 -> t = TChar (value 16 (c :: ds)) /\ e = [] /\ (ch, l) = OGet rest) /\ (value 16 (c :: ds) >= 256 -> e <> []).
Proof.
  intros c ds rest Hc HF. cbn [app]. rewrite scan_digit by exact Hc.
  destruct (Number_X (c :: ds) rest c (ds ++ 88 :: rest) HF (OGet_hex c _ ltac:(left; exact Hc))) as (t & e & ch & l & E & H1 & H2).
  exists t, e, ch, l. split; [exact E |]. split; [exact H1 |]. intros HV. apply H2. lia.
Qed.
(** Two points behind a number are read as the range symbol, as anywhere else. *)
Theorem C35_range : forall r f, Get (S f) 127 r [] = Get (S f) 46 (46 :: r) [] /\ fst (fst (fst (match Get (S f) 127 r [] with Ok x => x | _ => (TEof, [], 0, []) end))) = TSym 21.
Proof. intros r f. cbn [Get]. rewrite !skipws_stop by lia. cbn. destruct (OGet r) as [c l]. cbn. auto. Qed.
(** The part of C35 that fails: "no literal is silently wrapped".  Hexadecimal literals from 2^63 to 2^64 - 1 denote negative numbers. *)
Theorem C35_wrapped_refuted : exists c ds, digit c /\ Forall hexdigit (c :: ds) /\ value 16 (c :: ds) = 2 ^ 64 - 1 /\
  scan ((c :: ds) ++ [72]) = Ok (TInt (-1), [], 0, []).
Proof. exists 48, (repeat 70 16). split; [unfold digit; lia |]. split; [repeat (constructor; [unfold hexdigit; lia |]); constructor |]. split; reflexivity. Qed.
Example C35_example_decimal : ends_number [59] /\ scan ([57; 50; 50; 51; 51; 55; 50; 48; 51; 54; 56; 53; 52; 55; 55; 53; 56; 48; 55] ++ [59]) = Ok (TInt (2 ^ 63 - 1), [], 59, []).
Proof. split; [left; unfold hexdigit; lia | reflexivity]. Qed.
Example C35_example_over : scan ([57; 50; 50; 51; 51; 55; 50; 48; 51; 54; 56; 53; 52; 55; 55; 53; 56; 48; 56] ++ [59]) = Ok (TInt 922337203685477580, [203], 59, []).
Proof. reflexivity. Qed.
Example C35_example_hex : scan [48; 70; 70; 72; 59] = Ok (TInt 255, [], 59, []) /\ scan [48; 65; 88; 46; 46] = Ok (TChar 10, [], 46, [46]) /\ scan [49; 46; 46; 53] = Ok (TInt 1, [], 127, [53]).
Proof. repeat split; reflexivity. Qed.

(** ** C36: comments *)
(** Specification: the text behind the end of a comment; d is the number of comments open. *)
Fixpoint comment_end (d : nat) (t : list Z) : option (list Z) :=
  match t with
  | [] => None
  | c :: r =>
      match r with
      | [] => None
      | c2 :: r2 => if (c =? 40) && (c2 =? 42) then comment_end (S d) r2 else if (c =? 42) && (c2 =? 41) then (match d with S (S d') => comment_end (S d') r2 | _ => Some r2 end) else comment_end d r
      end
  end.
(** Bodies of comments, written as a grammar. *)
Inductive body : list Z -> Prop :=
| body_nil : body []
| body_char : forall c b, c <> 40 -> c <> 42 -> body b -> body (c :: b)
| body_comment : forall b b', body b -> body b' -> body ([40; 42] ++ b ++ [42; 41] ++ b').

Lemma ce_plain : forall d c r, c <> 40 -> c <> 42 -> comment_end d (c :: r) = comment_end d r.
Proof. intros d c r H1 H2. cbn [comment_end]. destruct (Z.eqb_spec c 40); [lia |]. destruct (Z.eqb_spec c 42); [lia |]. cbn. destruct r; reflexivity. Qed.
Lemma ce_body : forall b, body b -> forall d rest, comment_end (S d) (b ++ 42 :: 41 :: rest) = match d with O => Some rest | S d' => comment_end (S d') rest end.
Proof.
  induction 1 as [| c b H1 H2 HB IH | b b' HB IH HB' IH']; intros d rest.
  - reflexivity.
  - change ((c :: b) ++ 42 :: 41 :: rest) with (c :: (b ++ 42 :: 41 :: rest)). rewrite ce_plain by assumption. apply IH.
  - rewrite <- !app_assoc. change ([40; 42] ++ b ++ [42; 41] ++ b' ++ 42 :: 41 :: rest) with (40 :: 42 :: (b ++ 42 :: 41 :: (b' ++ 42 :: 41 :: rest))).
    cbn [comment_end]. change ((40 =? 40) && (42 =? 42)) with true. cbn beta iota. rewrite IH. apply IH'.
Qed.
Lemma ce_short : forall n d t r, (length t <= n)%nat -> comment_end d t = Some r -> (length r + 2 <= length t)%nat.
Proof.
  induction n as [| n IH]; intros d t r L E; destruct t as [| c [| c2 r2]]; try discriminate; cbn [length] in L; try lia.
  cbn [comment_end] in E. destruct ((c =? 40) && (c2 =? 42)); [apply IH in E; cbn [length]; lia |].
  destruct ((c =? 42) && (c2 =? 41)); [| apply (IH d (c2 :: r2)) in E; cbn [length] in *; lia].
  destruct d as [| [| d]]; [injection E as <-; cbn [length]; lia .. | apply IH in E; cbn [length]; lia].
Qed.
Lemma ce_nest : forall n d k t, (length t <= n)%nat -> comment_end (S k + S d) t = match comment_end (S k) t with Some r => comment_end (S d) r | None => None end.
Proof.
  induction n as [| n IH]; intros d k t L; destruct t as [| c [| c2 r2]]; cbn [length] in L; try lia; try reflexivity.
  replace (comment_end (S k + S d) (c :: c2 :: r2)) with (if (c =? 40) && (c2 =? 42) then comment_end (S (S k) + S d) r2 else if (c =? 42) && (c2 =? 41) then
    comment_end (k + S d) r2 else comment_end (S k + S d) (c2 :: r2)) by (cbn [comment_end Nat.add]; destruct k; reflexivity).
  replace (comment_end (S k) (c :: c2 :: r2)) with (if (c =? 40) && (c2 =? 42) then comment_end (S (S k)) r2 else if (c =? 42) && (c2 =? 41) then
    (match k with O => Some r2 | S k' => comment_end (S k') r2 end) else comment_end (S k) (c2 :: r2)) by (cbn [comment_end]; destruct k; reflexivity).
  destruct ((c =? 40) && (c2 =? 42)); [apply IH; lia |]. destruct ((c =? 42) && (c2 =? 41)); [| apply IH; cbn [length]; lia].
  destruct k; [reflexivity | apply IH; lia].
Qed.
(** OGet changes no character that matters here. *)
Lemma OGet_cases : forall t, OGet t = match t with [] => (0, []) | c :: r => (if c <? 9 then 32 else c, r) end.
Proof. reflexivity. Qed.
Lemma comment_spec : forall n t, (length t <= n)%nat -> forall f ch l errs, OGet t = (ch, l) -> (length t + 1 < f)%nat ->
  match comment_end 1 t with
  | Some r => comment f ch l errs = Ok (fst (OGet r), snd (OGet r), errs)
  | None => exists k, comment f ch l errs = Ok (0, [], errs ++ repeat 5 (S k))
  end.
Proof.
  induction n as [| n IH]; intros t L f ch l errs EO Lf; (destruct f as [| f]; [lia |]).
  - destruct t; [| cbn [length] in L; lia]. cbn in EO. injection EO as <- <-. exists 0%nat. reflexivity.
  - destruct t as [| c t]; [cbn in EO; injection EO as <- <-; exists 0%nat; reflexivity |]. cbn [length] in L, Lf.
    rewrite OGet_cases in EO. injection EO as <- <-. assert (E40 : ((if c <? 9 then 32 else c) =? 40) = (c =? 40)) by (destruct (Z.ltb_spec c 9), (Z.eqb_spec c 40); try reflexivity; lia).
    assert (E42 : ((if c <? 9 then 32 else c) =? 42) = (c =? 42)) by (destruct (Z.ltb_spec c 9), (Z.eqb_spec c 42); try reflexivity; lia).
    assert (E0 : ((if c <? 9 then 32 else c) =? Eot) = false) by (unfold Eot; destruct (Z.ltb_spec c 9); [reflexivity |]; destruct (Z.eqb_spec c 0); [lia | reflexivity]).
    cbn [comment]. rewrite E40, E42, E0. clear E40 E42 E0. destruct (OGet t) as [c1 l1] eqn:E1.
    destruct (Z.eqb_spec c 40) as [-> | N40].
    + destruct t as [| c2 r2]; [cbn in E1; injection E1 as <- <-; cbn; destruct f; [lia |]; exists 0%nat; reflexivity |].
      rewrite OGet_cases in E1. injection E1 as <- <-. assert (E42 : ((if c2 <? 9 then 32 else c2) =? 42) = (c2 =? 42)) by (destruct (Z.ltb_spec c2 9), (Z.eqb_spec c2 42); try reflexivity; lia).
      rewrite E42. destruct (Z.eqb_spec c2 42) as [-> | N42].
      * destruct (OGet r2) as [c3 l3] eqn:E3. cbn [length] in *. pose proof (IH r2 ltac:(lia) f c3 l3 errs E3 ltac:(lia)) as IH1.
        cbn [comment_end]. change ((40 =? 40) && (42 =? 42)) with true. cbn beta iota. rewrite (ce_nest (length r2) 0 0 r2 (Nat.le_refl _) : comment_end 2 r2 = _).
        destruct (comment_end 1 r2) as [r |] eqn:Er.
        -- rewrite IH1. cbn [bind]. pose proof (ce_short _ _ _ _ (Nat.le_refl _) Er). apply (IH r ltac:(lia) f _ _ errs); [apply surjective_pairing | lia].
        -- destruct IH1 as (k & IH1). rewrite IH1. cbn [bind]. destruct f; [lia |]. cbn. exists (S k). rewrite <- app_assoc. do 2 f_equal.
           f_equal. change ((5 :: repeat 5 k) ++ [5]) with (5 :: (repeat 5 k ++ [5])). f_equal. rewrite <- repeat_cons. reflexivity.
      * assert (EC : comment_end 1 (40 :: c2 :: r2) = comment_end 1 (c2 :: r2)) by (cbn [comment_end]; destruct (Z.eqb_spec c2 42); [lia | reflexivity]). rewrite EC.
        apply (IH (c2 :: r2)); [cbn [length] in *; lia | reflexivity | cbn [length] in *; lia].
    + destruct (Z.eqb_spec c 42) as [-> | N42].
      * destruct t as [| c2 r2]; [cbn in E1; injection E1 as <- <-; cbn; exists 0%nat; reflexivity |].
        rewrite OGet_cases in E1. injection E1 as <- <-. assert (E41 : ((if c2 <? 9 then 32 else c2) =? 41) = (c2 =? 41)) by (destruct (Z.ltb_spec c2 9), (Z.eqb_spec c2 41); try reflexivity; lia).
        assert (E0 : ((if c2 <? 9 then 32 else c2) =? Eot) = false) by (unfold Eot; destruct (Z.ltb_spec c2 9); [reflexivity |]; destruct (Z.eqb_spec c2 0); [lia | reflexivity]).
        rewrite E41, E0. destruct (Z.eqb_spec c2 41) as [-> | N41].
        -- cbn [comment_end]. change ((42 =? 40) && (41 =? 42)) with false. change ((42 =? 42) && (41 =? 41)) with true. cbn beta iota. destruct (OGet r2); reflexivity.
        -- assert (EC : comment_end 1 (42 :: c2 :: r2) = comment_end 1 (c2 :: r2)) by (cbn [comment_end]; destruct (Z.eqb_spec c2 41); [lia | reflexivity]). rewrite EC.
           apply (IH (c2 :: r2)); [cbn [length] in *; lia | reflexivity | cbn [length] in *; lia].
      * rewrite ce_plain by assumption. apply (IH t); [lia | exact E1 | lia].
Qed.
Lemma Comment_spec : forall t errs, match comment_end 1 t with
  | Some r => Comment t errs = Ok (fst (OGet r), snd (OGet r), errs)
  | None => exists k, Comment t errs = Ok (0, [], errs ++ repeat 5 (S k))
  end.
Proof.
  intros t errs. unfold Comment. destruct (OGet t) as [ch l] eqn:E. apply (comment_spec (length t) t (Nat.le_refl _)); [exact E |].
  destruct t; cbn in E; injection E as <- <-; cbn [length]; lia.
Qed.
(** The fuel of Get only has to exceed the length of the text. *)
Lemma skipws_len : forall l ch c r, skipws l ch = (c, r) -> (length r <= length l)%nat.
Proof.
  induction l as [| x l IH]; intros ch c r E; cbn [skipws] in E; destruct ((ch <=? 32) && negb (ch =? Eot)).
  - injection E as <- <-. auto.
  - injection E as <- <-. auto.
  - apply IH in E. cbn [length]. lia.
  - injection E as <- <-. auto.
Qed.
Lemma OGet_len : forall t, (length (snd (OGet t)) <= length t)%nat.
Proof. destruct t; cbn [OGet snd length]; lia. Qed.
Lemma Get_fuel : forall n l, (length l <= n)%nat -> forall f1 f2 ch errs, (length l < f1)%nat -> (length l < f2)%nat -> Get f1 ch l errs = Get f2 ch l errs.
Proof.
  induction n as [| n IH]; intros l L f1 f2 ch errs L1 L2; (destruct f1 as [| f1]; [lia |]); (destruct f2 as [| f2]; [lia |]); cbn [Get]; destruct (skipws l ch) as [c r] eqn:E;
    pose proof (skipws_len _ _ _ _ E) as LR; destruct (c =? Eot); try reflexivity; destruct ((c =? 34) || (c =? 39)); try reflexivity; (destruct (c =? 40); [| reflexivity]).
  - destruct r; [| cbn [length] in LR; lia]. reflexivity.
  - destruct (OGet r) as [c1 r1] eqn:E1. destruct (Z.eqb_spec c1 42) as [-> | N]; [| reflexivity].
    destruct r as [| c2 r2]; [cbn in E1; discriminate |]. cbn in E1. injection E1 as _ <-. cbn [length] in LR.
    pose proof (Comment_spec r2 errs) as HC. destruct (comment_end 1 r2) as [rr |] eqn:EC.
    + rewrite HC. cbn [bind]. pose proof (ce_short _ _ _ _ (Nat.le_refl _) EC). pose proof (OGet_len rr). apply IH; lia.
    + destruct HC as (k & HC). rewrite HC. cbn [bind]. destruct f1, f2; try lia. reflexivity.
Qed.
(** A comment is skipped: the next token is that of the text behind it.  Without end it is reported. *)
Theorem C36_comment : forall text, match comment_end 1 text with
  | Some rest => scan ([40; 42] ++ text) = scan rest
  | None => exists k, scan ([40; 42] ++ text) = Ok (TEof, repeat 5 (S k), 0, [])
  end.
Proof.
  intros text. pose proof (Comment_spec text []) as HC. unfold scan. cbn [app length]. change (OGet (40 :: 42 :: text)) with (40, 42 :: text). cbn beta iota.
  change (S (S (length text)) + 2)%nat with (S (S (length text + 2))).
  assert (EG : Get (S (S (length text + 2))) 40 (42 :: text) [] = (let* r := Comment text [] in let '(ch, l, errs) := r in Get (S (length text + 2)) ch l errs)) by reflexivity.
  rewrite EG. clear EG. destruct (comment_end 1 text) as [rest |] eqn:EC.
  - rewrite HC. cbn [bind]. pose proof (ce_short _ _ _ _ (Nat.le_refl _) EC). pose proof (OGet_len rest) as LO. destruct (OGet rest) as [ch l]. cbn [fst snd] in *. apply (Get_fuel (length l)); lia.
  - destruct HC as (k & HC). rewrite HC. cbn [bind]. exists k. reflexivity.
Qed.
(** Comments nest to any depth. *)
Theorem C36_nested : forall b rest, body b -> scan ([40; 42] ++ b ++ [42; 41] ++ rest) = scan rest.
Proof.
  intros b rest HB. pose proof (C36_comment (b ++ [42; 41] ++ rest)) as H. change (b ++ [42; 41] ++ rest) with (b ++ 42 :: 41 :: rest) in *. rewrite (ce_body b HB 0 rest) in H. exact H.
Qed.
Example C36_example : body [97; 40; 42; 98; 40; 42; 42; 41; 42; 41; 99] /\ comment_end 1 [40; 42; 41; 42; 41; 42; 41; 120] = Some [120] /\ comment_end 1 [40; 42; 42; 41] = None.
Proof.
  split; [| split; reflexivity]. apply body_char; [lia | lia |]. apply (body_comment [98; 40; 42; 42; 41] [99]).
  - apply body_char; [lia | lia |]. apply (body_comment [] []); constructor.
  - apply body_char; [lia | lia | constructor].
Qed.

(** ** The scanner never fails *)
Lemma mant_inv : forall l ch i m d dig e i' m' d' dig' e' ch' l', mant l ch i m d dig e = (i', m', d', dig', e', ch', l') -> Forall hexdigit dig -> Forall hexdigit dig'.
Proof.
  induction l as [| c l IH]; intros ch i m d dig e i' m' d' dig' e' ch' l' H HF; cbn [mant] in H;
    destruct ((48 <=? ch) && (ch <=? 57) || (d =? 0) && (65 <=? ch) && (ch <=? 70)) eqn:EC.
  - destruct ((m >? 0) || negb (ch =? 48)); injection H as <- <- <- <- <- <- <-; [destruct (Z.of_nat (length dig) <? 24) |]; auto. apply Forall_app. split; [exact HF |].
    constructor; [| constructor]. unfold hexdigit. destruct (d =? 0); cbn in EC; lia.
  - destruct (ch =? 46); injection H as <- <- <- <- <- <- <-; auto.
  - assert (HH : hexdigit ch) by (unfold hexdigit; destruct (d =? 0); cbn in EC; lia).
    destruct ((m >? 0) || negb (ch =? 48)); cbn beta iota zeta in H; apply IH in H; auto. destruct (Z.of_nat (length dig) <? 24); auto. apply Forall_app. auto.
  - destruct (ch =? 46); [| injection H as <- <- <- <- <- <- <-; auto]. destruct ((if c <? 9 then 32 else c) =? 46); [injection H as <- <- <- <- <- <- <-; auto |]. eapply IH; eassumption.
Qed.
Lemma hexval_total : forall ds, Forall hexdigit ds -> (length ds <= 16)%nat ->
  exists v, hexval ds (if (Z.of_nat (length ds) =? 16) && (match ds with c :: _ => c >? 55 | [] => false end) then -1 else 0) = Ok v.
Proof.
  intros ds HF L. destruct (Z.eqb_spec (Z.of_nat (length ds)) 16) as [E | N]; cbn [andb].
  - destruct ds as [| c r]; [discriminate |]. inversion HF as [| ? ? Hc HF']; subst. cbn [length] in E. assert (El : Z.of_nat (length r) = 15) by lia. pose proof (dval_hex c Hc). cbn [hexval].
    destruct (Z.gtb_spec c 55) as [G | G]; rewrite chk64 by lia; cbn [bind]; rewrite Ord_hex, chk64 by (auto; lia); cbn [bind];
      (assert (if c >? 55 then 8 <= dval c else dval c <= 7) as G2 by (unfold dval, hexdigit in *; destruct (Z.gtb_spec c 55), (Z.leb_spec c 57); lia));
      (destruct (Z.gtb_spec c 55); [| ]; try lia); rewrite hexval_spec by (rewrite ?El; change (16 ^ 15) with 1152921504606846976; auto; lia); eauto.
  - assert (16 ^ Z.of_nat (length ds) <= 16 ^ 15) by (apply Z.pow_le_mono_r; lia). change (16 ^ 15) with 1152921504606846976 in *. rewrite hexval_spec by (auto; lia). eauto.
Qed.
Lemma Number_total : forall ch l, exists r, Number ch l = Ok r.
Proof.
  intros ch l. unfold Number. destruct (mant l ch 0 0 0 [] []) as [[[[[[i m] d] dig] errs] c] r] eqn:E. pose proof (mant_inv _ _ _ _ _ _ _ _ _ _ _ _ _ _ E ltac:(constructor)) as HF.
  destruct (d =? 0); [| eauto]. destruct (Z.of_nat (length dig) =? m); [| eauto]. destruct (c =? 88).
  - destruct (OGet r) as [c2 r2]. destruct (Z.leb_spec (Z.of_nat (length dig)) 2); [| eauto]. destruct (hexval_total dig HF ltac:(lia)) as (v & Hv).
    destruct (Z.eqb_spec (Z.of_nat (length dig)) 16); [lia |]. cbn [andb] in Hv. rewrite Hv. cbn [bind]. eauto.
  - destruct (c =? 72).
    + destruct (OGet r) as [c2 r2]. destruct (Z.leb_spec (Z.of_nat (length dig)) 16); [| eauto]. destruct (hexval_total dig HF ltac:(lia)) as (v & Hv). rewrite Hv. cbn [bind]. eauto.
    + destruct (decval_total dig 0 errs HF ltac:(lia)) as (v & e & Hv). rewrite Hv. cbn [bind]. eauto.
Qed.
(** Every text has a next token: no overflow, no endless loop. *)
Lemma Get_total : forall n l, (length l <= n)%nat -> forall f ch errs, (length l < f)%nat -> exists r, Get f ch l errs = Ok r.
Proof.
  induction n as [| n IH]; intros l L f ch errs Lf; (destruct f as [| f]; [lia |]); cbn [Get]; destruct (skipws l ch) as [c r] eqn:E; pose proof (skipws_len _ _ _ _ E) as LR;
    (destruct (c =? Eot); [eauto |]); (destruct ((c =? 34) || (c =? 39)); [destruct (Str c r) as [[[t e] c2] r2]; eauto |]); (destruct (c =? 40); [
      | destruct (c =? 46); [destruct (pair_sym r 46 21 18) as [[[t e] c2] r2]; eauto |]; destruct (c =? 58); [destruct (pair_sym r 61 34 20) as [[[t e] c2] r2]; eauto |];
        destruct (c =? 60); [destruct (pair_sym r 61 12 11) as [[[t e] c2] r2]; eauto |]; destruct (c =? 62); [destruct (pair_sym r 61 14 13) as [[[t e] c2] r2]; eauto |];
        destruct ((48 <=? c) && (c <=? 57)); [destruct (Number_total c r) as ([[[t e] c2] r2] & EN); rewrite EN; cbn [bind]; eauto |];
        destruct (letter c); [destruct (Identifier c r) as [[[t e] c2] r2]; eauto | destruct (OGet r); eauto]]).
  - destruct r; [| cbn [length] in LR; lia]. cbn. eauto.
  - destruct (OGet r) as [c1 r1] eqn:E1. destruct (Z.eqb_spec c1 42) as [-> | N]; [| eauto].
    destruct r as [| c2 r2]; [cbn in E1; discriminate |]. cbn in E1. injection E1 as _ <-. cbn [length] in LR.
    pose proof (Comment_spec r2 errs) as HC. destruct (comment_end 1 r2) as [rr |] eqn:EC.
    + rewrite HC. cbn [bind]. pose proof (ce_short _ _ _ _ (Nat.le_refl _) EC). pose proof (OGet_len rr). apply IH; lia.
    + destruct HC as (k & HC). rewrite HC. cbn [bind]. destruct f; [lia |]. cbn. eauto.
Qed.
Theorem C36_total : forall text, exists r, scan text = Ok r.
Proof. intros text. unfold scan. pose proof (OGet_len text). destruct (OGet text) as [ch l]. cbn [snd] in *. apply (Get_total (length l)); lia. Qed.

(** ** C37: names and reserved words *)
Fixpoint codes (s : string) : list Z := match s with EmptyString => [] | String a s => Z.of_N (N_of_ascii a) :: codes s end.
(** The reserved words of Oberon-2, with the symbol numbers of OPS.Mod 29-41. *)
Definition reserved : list (string * Z) :=
  [("ARRAY", 54); ("BEGIN", 57); ("BY", 29); ("CASE", 46); ("CONST", 58); ("DIV", 3); ("DO", 27); ("ELSE", 42); ("ELSIF", 43); ("END", 41); ("EXIT", 52); ("FOR", 49);
   ("IF", 45); ("IMPORT", 62); ("IN", 15); ("IS", 16); ("LOOP", 50); ("MOD", 4); ("MODULE", 63); ("NIL", 36); ("OF", 25); ("OR", 8); ("POINTER", 56); ("PROCEDURE", 61);
   ("RECORD", 55); ("REPEAT", 48); ("RETURN", 53); ("THEN", 26); ("TO", 28); ("TYPE", 59); ("UNTIL", 44); ("VAR", 60); ("WHILE", 47); ("WITH", 51)]%string.
Definition is_letter (c : Z) : Prop := 65 <= c <= 90 \/ 97 <= c <= 122.
Definition name_char (c : Z) : Prop := is_letter c \/ digit c.
Definition ends_name (rest : list Z) : Prop := match rest with [] => True | c :: _ => ~ name_char c /\ c < 128 end.

Lemma id_ends_ascii : forall c, 0 <= c < 128 -> id_ends c = false <-> name_char c.
Proof.
  intros c H. assert (A : forallb (fun n => Bool.eqb (id_ends (Z.of_nat n)) (negb (letter (Z.of_nat n) || ((48 <=? Z.of_nat n) && (Z.of_nat n <=? 57))))) (seq 0 128) = true) by (vm_compute; reflexivity).
  rewrite forallb_forall in A. specialize (A (Z.to_nat c) ltac:(apply in_seq; lia)). rewrite Z2Nat.id in A by lia. apply Bool.eqb_prop in A. rewrite A. clear A.
  unfold letter, name_char, is_letter, digit. destruct (Z.leb_spec 65 c), (Z.leb_spec c 90), (Z.leb_spec 97 c), (Z.leb_spec c 122), (Z.leb_spec 48 c), (Z.leb_spec c 57); cbn; split; intros X; try discriminate; try reflexivity; try lia.
Qed.
Lemma name_char_ge : forall c, name_char c -> 48 <= c < 128.
Proof. intros c H. unfold name_char, is_letter, digit in H. lia. Qed.
Lemma id_loop_spec : forall ds rest pre c, Forall name_char ds -> ends_name rest -> (length pre + 1 + length ds <= 255)%nat ->
  id_loop (ds ++ rest) c pre = (pre ++ c :: ds, [], fst (OGet rest), snd (OGet rest)).
Proof.
  induction ds as [| d ds IH]; intros rest pre c HF HE HL; cbn [length] in HL.
  - cbn [app]. destruct rest as [| r0 rest]; cbn [id_loop]; rewrite app_length; cbn [length]; (destruct (Z.eqb_spec (Z.of_nat (length pre + 1)) 256); [lia |]); [reflexivity |].
    cbn [ends_name] in HE. destruct HE as [HE H128]. cbn [OGet fst snd]. destruct (Z.ltb_spec r0 9) as [G | G]; [reflexivity |].
    destruct (id_ends r0) eqn:EI; [reflexivity |]. apply (id_ends_ascii r0 ltac:(lia)) in EI. contradiction.
  - inversion HF as [| ? ? Hd HF']; subst. cbn [app id_loop]. rewrite app_length. cbn [length]. destruct (Z.eqb_spec (Z.of_nat (length pre + 1)) 256); [lia |].
    pose proof (name_char_ge d Hd). destruct (Z.ltb_spec d 9); [lia |]. rewrite (proj2 (id_ends_ascii d ltac:(lia)) Hd). rewrite IH; [| assumption | assumption | rewrite app_length; cbn [length]; lia].
    rewrite <- app_assoc. reflexivity.
Qed.
Lemma id_loop_long : forall ds rest pre c, Forall name_char ds -> (length pre <= 255)%nat -> (length pre + 1 + length ds >= 256)%nat -> exists n ch l, id_loop (ds ++ rest) c pre = (n, [240], ch, l).
Proof.
  induction ds as [| d ds IH]; intros rest pre c HF HP HL; cbn [length] in HL.
  - cbn [app]. destruct rest as [| r0 rest]; cbn [id_loop]; rewrite app_length; cbn [length]; (destruct (Z.eqb_spec (Z.of_nat (length pre + 1)) 256); [| lia]); [cbn; eauto | cbn [OGet]; eauto].
  - inversion HF as [| ? ? Hd HF']; subst. cbn [app id_loop]. rewrite app_length. cbn [length]. destruct (Z.eqb_spec (Z.of_nat (length pre + 1)) 256); [cbn [OGet]; eauto |].
    pose proof (name_char_ge d Hd). destruct (Z.ltb_spec d 9); [lia |]. rewrite (proj2 (id_ends_ascii d ltac:(lia)) Hd). apply IH; [assumption | rewrite app_length; cbn [length]; lia | rewrite app_length; cbn [length]; lia].
Qed.
Lemma Get_letter : forall f ch l, is_letter ch -> Get (S f) ch l [] = (let '(name, e, c, r) := Identifier ch l in Ok (classify ch name, e, c, r)).
Proof.
  intros f ch l H. unfold is_letter in H. cbn [Get]. rewrite skipws_stop by lia. unfold Eot.
  destruct (Z.eqb_spec ch 0); [lia |]. destruct (Z.eqb_spec ch 34); [lia |]. destruct (Z.eqb_spec ch 39); [lia |]. cbn [orb]. destruct (Z.eqb_spec ch 40); [lia |].
  destruct (Z.eqb_spec ch 46); [lia |]. destruct (Z.eqb_spec ch 58); [lia |]. destruct (Z.eqb_spec ch 60); [lia |]. destruct (Z.eqb_spec ch 62); [lia |].
  destruct (Z.leb_spec 48 ch), (Z.leb_spec ch 57); try lia; cbn [andb]; (assert (EL : letter ch = true) by (unfold letter; destruct (Z.leb_spec 65 ch), (Z.leb_spec ch 90), (Z.leb_spec 97 ch), (Z.leb_spec ch 122); cbn; try reflexivity; lia));
    rewrite EL; destruct (Identifier ch l) as [[[? ?] ?] ?]; reflexivity.
Qed.
Lemma classify_reserved : forall w s c r, In (w, s) reserved -> codes w = c :: r -> classify c (c :: r) = TSym s.
Proof. intros w s c r HI HE. cbn [In reserved] in HI. repeat (destruct HI as [HI | HI]; [injection HI as <- <-; cbn in HE; injection HE as <- <-; reflexivity |]). contradiction. Qed.
Lemma classify_other : forall c name, (forall w s, In (w, s) reserved -> name <> codes w) -> classify c name = TIdent name.
Proof.
  intros c name H. assert (A : forall w s, In (w, s) reserved -> str name (codes w) = false).
  { intros w s HI. unfold str. destruct (list_eq_dec Z.eq_dec name (codes w)) as [E | N]; [exfalso; eapply H; eassumption | reflexivity]. }
  unfold reserved in A.
  assert (B : Forall (fun ws => str name (codes (fst ws)) = false) reserved) by (apply Forall_forall; intros [w s] HI; eapply A; exact HI).
  clear A H. unfold reserved in B. repeat match goal with B : Forall _ (_ :: _) |- _ => inversion B; clear B; subst end. cbn [fst codes] in *.
  unfold classify.
  repeat match goal with H : str name ?x = false |- _ => let y := eval vm_compute in x in change (str name y = false) in H; rewrite H; clear H end.
  repeat match goal with |- (if ?b then _ else _) = _ => destruct b; try reflexivity end.
Qed.
(** A letter and the letters and digits that follow it are a reserved word if they are spelled like one, otherwise a name with this spelling. *)
Theorem C37_classify : forall c ds rest, is_letter c -> Forall name_char ds -> (length (c :: ds) <= 255)%nat -> ends_name rest ->
  exists t ch l, scan ((c :: ds) ++ rest) = Ok (t, [], ch, l) /\ (ch, l) = OGet rest /\
    (forall w s, In (w, s) reserved -> c :: ds = codes w -> t = TSym s) /\ ((forall w s, In (w, s) reserved -> c :: ds <> codes w) -> t = TIdent (c :: ds)).
Proof.
  intros c ds rest Hc HF HL HE. cbn [length] in HL. unfold scan. cbn [app]. assert (EO : OGet (c :: ds ++ rest) = (c, ds ++ rest)) by (unfold OGet, is_letter in *; destruct (Z.ltb_spec c 9); [lia | reflexivity]).
  rewrite EO. change (length (c :: ds ++ rest) + 2)%nat with (S (length (ds ++ rest) + 2)). rewrite Get_letter by exact Hc.
  unfold Identifier. rewrite id_loop_spec; [| assumption | assumption | cbn [length]; lia]. cbn [app].
  exists (classify c (c :: ds)), (fst (OGet rest)), (snd (OGet rest)). split; [reflexivity |]. split; [symmetry; apply surjective_pairing |]. split.
  - intros w s HI HW. eapply classify_reserved; [exact HI | symmetry; exact HW].
  - intros H. apply classify_other, H.
Qed.
(** The hypothesis of the second part and the conclusion of the first cannot be confused: a reserved word is never delivered as a name, and a name never as a reserved word. *)
Theorem C37_reserved_iff : forall c ds rest, is_letter c -> Forall name_char ds -> (length (c :: ds) <= 255)%nat -> ends_name rest -> forall s ch l e,
  scan ((c :: ds) ++ rest) = Ok (TSym s, e, ch, l) <-> (exists w, In (w, s) reserved /\ c :: ds = codes w) /\ e = [] /\ (ch, l) = OGet rest.
Proof.
  intros c ds rest Hc HF HL HE s ch l e. destruct (C37_classify c ds rest Hc HF HL HE) as (t & ch' & l' & E & EO & H1 & H2). split.
  - intros E'. rewrite E' in E. injection E as <- -> <- <-. split; [| auto].
    assert (D : {ws | In ws reserved /\ c :: ds = codes (fst ws)} + {forall w s, In (w, s) reserved -> c :: ds <> codes w}).
    { generalize reserved as R. induction R as [| [w s'] R IH]; [right; intros w s' [] |]. destruct (list_eq_dec Z.eq_dec (c :: ds) (codes w)) as [W | W].
      - left. exists (w, s'). split; [left; reflexivity | exact W].
      - destruct IH as [[ws [I1 I2]] | IH]; [left; exists ws; split; [right; exact I1 | exact I2] |]. right. intros w2 s2 [I | I]; [injection I as <- <-; exact W | eapply IH; exact I]. }
    destruct D as [[[w s'] [I1 I2]] | D]; [| specialize (H2 D); discriminate]. cbn [fst] in I2. specialize (H1 w s' I1 I2). injection H1 as ->. eauto.
  - intros ((w & I & W) & -> & E2). rewrite (H1 w s I W) in E. rewrite E. rewrite <- EO in E2. injection E2 as -> ->. reflexivity.
Qed.
(** A longer name is reported. *)
Theorem C37_too_long : forall c ds rest, is_letter c -> Forall name_char ds -> (length (c :: ds) >= 256)%nat -> exists t ch l, scan ((c :: ds) ++ rest) = Ok (t, [240], ch, l).
Proof.
  intros c ds rest Hc HF HL. cbn [length] in HL. unfold scan. cbn [app]. assert (EO : OGet (c :: ds ++ rest) = (c, ds ++ rest)) by (unfold OGet, is_letter in *; destruct (Z.ltb_spec c 9); [lia | reflexivity]).
  rewrite EO. change (length (c :: ds ++ rest) + 2)%nat with (S (length (ds ++ rest) + 2)). rewrite Get_letter by exact Hc.
  unfold Identifier. destruct (id_loop_long ds rest [] c HF ltac:(cbn; lia) ltac:(cbn [length]; lia)) as (n & ch & l & E). rewrite E. eauto.
Qed.
(** The restriction to ASCII in ends_name cannot be dropped: of the bytes from 80X on, some are taken into names and some are not. *)
Theorem C37_high_bytes_refuted : (exists b, 128 <= b < 256 /\ ~ name_char b /\ scan [120; b; 59] = Ok (TIdent [120; b], [], 59, [])) /\
  (exists b, 128 <= b < 256 /\ ~ name_char b /\ scan [120; b; 59] = Ok (TIdent [120], [], b, [59])).
Proof. split; [exists 195 | exists 164]; unfold name_char, is_letter, digit; (split; [lia | split; [lia | reflexivity]]). Qed.
Example C37_example : scan (codes "BEGIN x" ++ [59]) = Ok (TSym 57, [], 32, [120; 59]) /\ scan (codes "BEGINS;") = Ok (TIdent (codes "BEGINS"), [], 59, []) /\
  scan (codes "begin;") = Ok (TIdent (codes "begin"), [], 59, []) /\ is_letter 66 /\ ends_name [32; 120; 59] /\ scan (codes "a_b") = Ok (TIdent [97], [], 95, [98]).
Proof. unfold is_letter, ends_name, name_char, digit. cbn. repeat split; try reflexivity; try lia. unfold is_letter. lia. Qed.

(** ** C38: string literals *)
(** A literal with the value of a string of one character is a character constant. *)
Definition denotes (cs : list Z) : token := match cs with [c] => TChar c | _ => TString cs end.
Definition quote (q : Z) : Prop := q = 34 \/ q = 39.
Lemma scan_quote : forall q text, quote q -> scan (q :: text) = Ok (Str q text).
Proof.
  intros q text H. unfold scan. assert (EO : OGet (q :: text) = (q, text)) by (unfold OGet, quote in *; destruct (Z.ltb_spec q 9); [lia | reflexivity]). rewrite EO.
  change (length (q :: text) + 2)%nat with (S (length text + 2)). cbn [Get]. rewrite skipws_stop by (unfold quote in H; lia). unfold Eot. destruct (Z.eqb_spec q 0); [unfold quote in H; lia |].
  replace ((q =? 34) || (q =? 39)) with true by (destruct H as [-> | ->]; reflexivity). destruct (Str q text) as [[[t e] c] r]. reflexivity.
Qed.
Lemma str_ok : forall q cs rest s, 32 <= q -> Forall (fun c => 32 <= c /\ c <> q) cs -> (length s + length cs <= 255)%nat -> str_loop q (cs ++ q :: rest) s = (s ++ cs, [], rest).
Proof.
  intros q. induction cs as [| c cs IH]; intros rest s Hq HF HL; cbn [app str_loop].
  - destruct (Z.ltb_spec q 9); [lia |]. rewrite Z.eqb_refl, app_nil_r. reflexivity.
  - inversion HF as [| ? ? [H1 H2] HF']; subst. cbn [length] in HL. destruct (Z.ltb_spec c 9); [lia |]. destruct (Z.eqb_spec c q); [lia |]. destruct (Z.ltb_spec c 32); [lia |].
    destruct (Z.eqb_spec (Z.of_nat (length s)) 255); [lia |]. rewrite IH; [rewrite <- app_assoc; reflexivity | assumption .. | rewrite app_length; cbn [length]; lia].
Qed.
(** The characters between the quotes, exactly. *)
Theorem C38_contents : forall q cs rest, quote q -> Forall (fun c => 32 <= c /\ c <> q) cs -> (length cs <= 255)%nat ->
  scan (q :: cs ++ q :: rest) = Ok (denotes cs, [], fst (OGet rest), snd (OGet rest)).
Proof.
  intros q cs rest Hq HF HL. rewrite scan_quote by exact Hq. unfold Str. rewrite str_ok; [| unfold quote in Hq; lia | exact HF | cbn [length]; lia].
  cbn [app]. destruct (OGet rest). unfold denotes. destruct cs as [| c [| c2 cs]]; reflexivity.
Qed.
(** A literal that is not reported has this form, up to the replacement of the characters 00X..08X by blanks. *)
Theorem C38_reported : forall q text t ch l, quote q -> scan (q :: text) = Ok (t, [], ch, l) ->
  exists cs rest, text = cs ++ q :: rest /\ Forall (fun c => (32 <= c /\ c <> q) \/ c < 9) cs /\ (length cs <= 255)%nat /\ t = denotes (map (fun c => if c <? 9 then 32 else c) cs) /\ (ch, l) = OGet rest.
Proof.
  intros q text t ch l Hq E. rewrite scan_quote in E by exact Hq. injection E as E. unfold Str in E. destruct (str_loop q text []) as [[s e] r] eqn:ES. destruct (OGet r) as [c0 l0] eqn:EO.
  assert (HE : e = [] /\ t = denotes s /\ ch = c0 /\ l = l0) by (unfold denotes; destruct s as [| x [| y s]]; injection E; intros; subst; auto). destruct HE as (-> & -> & -> & ->). clear E.
  assert (G : forall s0, (length s0 <= 255)%nat -> str_loop q text s0 = (s, [], r) -> exists cs, text = cs ++ q :: r /\ Forall (fun c => (32 <= c /\ c <> q) \/ c < 9) cs /\ (length s0 + length cs <= 255)%nat /\ s = s0 ++ map (fun c => if c <? 9 then 32 else c) cs).
  { clear ES EO. assert (Hq32 : q <> 32 /\ 32 < q) by (unfold quote in Hq; lia). induction text as [| c text IH]; intros s0 L0 E; cbn [str_loop] in E; [discriminate |].
    destruct (Z.eqb_spec (if c <? 9 then 32 else c) q) as [EQ | N].
    - injection E as <- <-. exists []. destruct (Z.ltb_spec c 9); [lia |]. subst c. cbn. rewrite app_nil_r, Nat.add_0_r. repeat split; auto.
    - destruct (Z.ltb_spec (if c <? 9 then 32 else c) 32) as [G | G]; [discriminate |]. destruct (Z.eqb_spec (Z.of_nat (length s0)) 255); [discriminate |].
      apply IH in E; [| rewrite app_length; cbn [length]; lia]. destruct E as (cs & -> & HF & HL & ->). exists (c :: cs). split; [reflexivity |]. split; [| split].
      + constructor; [| exact HF]. destruct (Z.ltb_spec c 9); [right; assumption | left; split; [lia | exact N]].
      + rewrite app_length in HL. cbn [length] in *. lia.
      + cbn [map]. rewrite <- app_assoc. reflexivity. }
  destruct (G [] ltac:(cbn; lia) ES) as (cs & -> & HF & HL & ->). exists cs, r. cbn [app length] in *. auto.
Qed.
(** The part of C38 that fails: the characters 00X..08X in a literal are neither kept nor reported. *)
Theorem C38_control_refuted : scan [34; 97; 7; 98; 34] = Ok (TString [97; 32; 98], [], 0, []).
Proof. reflexivity. Qed.
Example C38_example : scan (34 :: codes "it's" ++ [34; 59]) = Ok (TString (codes "it's"), [], 59, []) /\ scan [39; 120; 39] = Ok (TChar 120, [], 0, []) /\ scan [34; 34] = Ok (TString [], [], 0, []) /\
  scan [34; 97; 10; 34] = Ok (TChar 97, [3], 34, []) /\ scan [34; 97; 98] = Ok (TString [97; 98], [3], 0, []).
Proof. repeat split; reflexivity. Qed.

Print Assumptions C35_decimal.
Print Assumptions C35_missing_suffix.
Print Assumptions C35_hexadecimal.
Print Assumptions C35_character.
Print Assumptions C35_range.
Print Assumptions C36_comment.
Print Assumptions C36_nested.
Print Assumptions C36_total.
Print Assumptions C37_classify.
Print Assumptions C37_reserved_iff.
Print Assumptions C37_too_long.
Print Assumptions C38_contents.
Print Assumptions C38_reported.
