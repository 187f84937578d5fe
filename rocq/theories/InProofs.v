From Verif Require Import Base ArrZ ArithModel ArithSpec ArithProofs OutSpec InModel.

(** [At s l]: not at the start of a line, and l is what remains.  [Avail s l]: l is what remains. *)
Definition At (s : ist) (l : list Z) : Prop :=
  match l with c :: r => rs s = ready /\ nextch s = c /\ rest s = r | [] => rs s = ateof /\ rest s = [] end.
Definition Avail (s : ist) (l : list Z) : Prop := At s l \/ rs s = pending /\ rest s = l.

Lemma Avail_init : forall l, Avail (iinit l) l.
Proof. intro l. right. auto. Qed.
Lemma At_ready : forall s l, At s l -> isready s = match l with [] => false | _ => true end.
Proof. intros s [|c l] H; unfold isready; destruct H as [-> _]; reflexivity. Qed.
Lemma ReadChar_At : forall s c l, At s (c :: l) -> At (ReadChar s) l /\ done (ReadChar s) = done s.
Proof.
  intros s c l (A & B & C). unfold ReadChar. rewrite C. destruct l; cbn [At rs nextch rest done]; auto.
Qed.
Lemma StartRead_At : forall s l, Avail s l -> At (StartRead s) l /\ done (StartRead s) = done s.
Proof.
  intros s l [H|[H1 H2]].
  - unfold StartRead. destruct l; pose proof H as (Q & _); rewrite Q; auto.
  - unfold StartRead. rewrite H1. unfold ReadChar. rewrite H2. destruct l; cbn [At rs nextch rest done]; auto.
Qed.
Lemma At_setdone : forall s l b, At s l -> At (setdone b s) l.
Proof. intros s [|c l] b H; exact H. Qed.
Lemma At_next : forall s c l, At s (c :: l) -> nextch s = c.
Proof. intros s c l H. apply H. Qed.

Lemma skipblanks_spec : forall ws l fuel s, Forall (fun c => c <= 32) ws -> match l with c :: _ => 32 < c | [] => True end ->
  At s (ws ++ l) -> (length ws < fuel)%nat -> exists s', skipblanks fuel s = Ok s' /\ At s' l /\ done s' = done s.
Proof.
  induction ws as [|c ws IH]; intros l fuel s W N H F; (destruct fuel as [|fuel]; [lia|]); cbn [skipblanks].
  - cbn [app] in H. rewrite (At_ready _ _ H). destruct l as [|c l]; [exists s; auto|]. rewrite (At_next _ _ _ H). replace (c <=? 32) with false by lia. exists s. auto.
  - cbn [app] in H. inversion W; subst. rewrite (At_ready _ _ H). rewrite (At_next _ _ _ H). replace (c <=? 32) with true by lia. cbn [andb].
    destruct (ReadChar_At _ _ _ H) as [A B]. destruct (IH l fuel (ReadChar s)) as (s' & D & E & G); auto; [cbn [length] in F; lia|].
    exists s'. split; auto. split; auto. congruence.
Qed.
Lemma StartAndSkip_spec : forall ws l s, Forall (fun c => c <= 32) ws -> match l with c :: _ => 32 < c | [] => True end ->
  Avail s (ws ++ l) -> exists s', StartAndSkip s = Ok s' /\ At s' l /\ done s' = done s.
Proof.
  intros ws l s W N H. unfold StartAndSkip. destruct (StartRead_At _ _ H) as [A B]. set (s1 := StartRead s) in *.
  destruct (skipblanks_spec ws l (S (S (length (rest s1)))) s1) as (s' & C & D & E); auto.
  - destruct ws as [|c ws]; [cbn [length]; lia|]. destruct A as (_ & _ & ->). rewrite app_length. cbn [length]. lia.
  - exists s'. split; auto. split; auto. congruence.
Qed.
(** Every input is blanks followed by nothing or by a non-blank. *)
Lemma split_blanks : forall l, exists ws r, l = ws ++ r /\ Forall (fun c => c <= 32) ws /\ match r with c :: _ => 32 < c | [] => True end.
Proof.
  induction l as [|c l (ws & r & E & F & G)]; [exists [], []; auto|]. destruct (Z_lt_le_dec 32 c) as [H|H].
  - exists [], (c :: l). auto.
  - exists (c :: ws), r. split; [cbn [app]; congruence|]. auto.
Qed.

(** * Digits *)
Definition dv (c : Z) : Z := fst (digit_of c).
Lemma land15_small : forall c, 0 <= c -> Z.land c 15 = c mod 16.
Proof. intros c H. change 15 with (Z.ones 4). rewrite Z.land_ones by lia. reflexivity. Qed.
Lemma digval_dv : forall c d, digval c = Some d -> digit_of c = (d, negb (d <? 10)).
Proof.
  intros c d H. unfold digval in H. unfold digit_of. destruct ((48 <=? c) && (c <=? 57)) eqn:A.
  - inversion H. subst. rewrite land15_small by lia. replace (c mod 16) with (c - 48) by lia. replace (c - 48 <? 10) with true by lia. reflexivity.
  - destruct ((65 <=? c) && (c <=? 70)) eqn:B; [|discriminate]. inversion H. subst. rewrite orb_true_r, land15_small by lia.
    replace (c mod 16) with (c - 64) by lia. replace (c - 55 <? 10) with false by lia. cbn [negb]. f_equal. lia.
Qed.
Definition acc (base a : Z) (ds : list Z) : Z := fold_left (fun a c => a * base + dv c) ds a.
Lemma acc_cons : forall base a c ds, acc base a (c :: ds) = acc base (a * base + dv c) ds.
Proof. reflexivity. Qed.
Lemma acc_numeral : forall base ds v, numeral base ds v -> acc base 0 ds = v.
Proof.
  intros base ds v H. induction H as [|l u c d H IH Hc Hd]; [reflexivity|]. unfold acc in *. rewrite fold_left_app. cbn [fold_left]. rewrite IH.
  unfold dv. rewrite (digval_dv c d Hc). reflexivity.
Qed.
Lemma acc_mono : forall base ds a, 0 < base -> 0 <= a -> Forall (fun c => 0 <= dv c) ds -> a <= acc base a ds.
Proof.
  intros base ds. induction ds as [|c ds IH]; intros a Hb Ha F; [unfold acc; cbn [fold_left]; lia|]. inversion F; subst. unfold acc. cbn [fold_left]. fold (acc base (a * base + dv c) ds).
  specialize (IH (a * base + dv c) Hb ltac:(nia) H2). nia.
Qed.
Lemma digit_of_le15 : forall c, -1 <= dv c <= 24.
Proof.
  intro c. unfold dv, digit_of. change 15 with (Z.ones 4). rewrite Z.land_ones by lia. change (2 ^ 4) with 16.
  destruct ((48 <=? c) && (c <=? 57)); cbn [fst]; [lia|]. destruct ((97 <=? c) && (c <=? 102) || (65 <=? c) && (c <=? 70)); cbn [fst]; lia.
Qed.

Definition wrapA (z : Z) : res Z := Ok (wrap_s 64 z).
Lemma wrap_s_cong : forall a b, a mod 2 ^ 64 = b mod 2 ^ 64 -> wrap_s 64 a = wrap_s 64 b.
Proof.
  intros a b H. apply (in_int_bits_inj 64); [lia|apply wrap_s_range; lia|apply wrap_s_range; lia|]. intros i Hi.
  rewrite !testbit_wrap_s by lia. rewrite <- (Z.mod_pow2_bits_low a 64), <- (Z.mod_pow2_bits_low b 64) by lia. congruence.
Qed.
Lemma wrap_step : forall a base d, wrap_s 64 (wrap_s 64 (wrap_s 64 a * base) + d) = wrap_s 64 (a * base + d).
Proof.
  intros a base d. apply wrap_s_cong. rewrite Z.add_mod, wrap_s_mod by lia. rewrite Z.mul_mod, wrap_s_mod by lia.
  rewrite <- Z.mul_mod, <- Z.add_mod by lia. reflexivity.
Qed.

(** Reading the digits of a number, with wrapping arithmetic. *)
Lemma loop_wrap : forall ds f fuel hex a b s, At s (ds ++ f) -> Forall (fun c => 0 <= dv c) ds ->
  exists s', At s' f /\ done s' = (done s || match ds with [] => false | _ => true end) /\
    hugeint_loop (length ds + fuel) wrapA hex false (wrap_s 64 a) (wrap_s 64 b) s =
    hugeint_loop fuel wrapA (hex || existsb (fun c => snd (digit_of c)) ds) false (wrap_s 64 (acc 10 a ds)) (wrap_s 64 (acc 16 b ds)) s'.
Proof.
  induction ds as [|c ds IH]; intros f fuel hex a b s H F.
  - exists s. split; auto. split; [rewrite orb_false_r; auto|]. cbn [length Nat.add existsb]. rewrite orb_false_r. reflexivity.
  - inversion F; subst. cbn [app] in H. cbn [length Nat.add hugeint_loop]. rewrite (At_ready _ _ H). cbn [andb negb]. rewrite (At_next _ _ _ H).
    unfold dv in H2. destruct (digit_of c) as [d hx] eqn:D. cbn [fst] in H2. replace (d >=? 0) with true by lia. unfold wrapA. rewrite !bind_ok. rewrite !wrap_step.
    destruct (ReadChar_At _ _ _ (At_setdone _ _ true H)) as [A B].
    destruct (IH f fuel (hex || hx) (a * 10 + d) (b * 16 + d) (ReadChar (setdone true s)) A H3) as (s' & C & E & G).
    exists s'. split; auto. split; [rewrite E, B; cbn [setdone done orb]; rewrite orb_true_r; reflexivity|].
    unfold wrapA in G. rewrite G. cbn [existsb]. rewrite D. cbn [snd]. rewrite orb_assoc. rewrite !acc_cons. assert (Dv : dv c = d) by (unfold dv; rewrite D; reflexivity). rewrite Dv. reflexivity.
Qed.
(** The same with arithmetic that must not overflow. *)
Lemma loop_strict : forall ds f fuel hex a b s, At s (ds ++ f) -> Forall (fun c => 0 <= dv c) ds -> 0 <= a -> 0 <= b ->
  acc 10 a ds < 2 ^ 63 -> acc 16 b ds < 2 ^ 63 ->
  exists s', At s' f /\ done s' = (done s || match ds with [] => false | _ => true end) /\
    hugeint_loop (length ds + fuel) (chk 64) hex false a b s =
    hugeint_loop fuel (chk 64) (hex || existsb (fun c => snd (digit_of c)) ds) false (acc 10 a ds) (acc 16 b ds) s'.
Proof.
  induction ds as [|c ds IH]; intros f fuel hex a b s H F Ha Hb La Lb.
  - exists s. split; auto. split; [rewrite orb_false_r; auto|]. cbn [length Nat.add existsb]. rewrite orb_false_r. reflexivity.
  - inversion F; subst. cbn [app] in H. cbn [length Nat.add hugeint_loop]. rewrite (At_ready _ _ H). cbn [andb negb]. rewrite (At_next _ _ _ H).
    rewrite acc_cons in La, Lb.
    pose proof (acc_mono 10 ds (a * 10 + dv c) ltac:(lia) ltac:(lia) H3). pose proof (acc_mono 16 ds (b * 16 + dv c) ltac:(lia) ltac:(lia) H3).
    assert (K : forall z, 0 <= z < 2 ^ 63 -> chk 64 z = Ok z) by (intros z Hz; apply chk_ok; apply in_int64; change (2 ^ 63) with 9223372036854775808 in Hz; lia).
    unfold dv in *. destruct (digit_of c) as [d hx] eqn:D. cbn [fst] in *. replace (d >=? 0) with true by lia. rewrite (K (a * 10)) by lia. rewrite bind_ok. rewrite (K (a * 10 + d)) by lia. rewrite bind_ok.
    rewrite (K (b * 16)) by lia. rewrite bind_ok. rewrite (K (b * 16 + d)) by lia. rewrite bind_ok.
    destruct (ReadChar_At _ _ _ (At_setdone _ _ true H)) as [A B].
    destruct (IH f fuel (hex || hx) (a * 10 + d) (b * 16 + d) (ReadChar (setdone true s)) A H3) as (s' & C & E & G); try lia.
    exists s'. split; auto. split; [rewrite E, B; cbn [setdone done orb]; rewrite orb_true_r; reflexivity|].
    rewrite G. cbn [existsb]. rewrite D. cbn [snd]. rewrite orb_assoc. rewrite !acc_cons. assert (Dv : dv c = d) by (unfold dv; rewrite D; reflexivity). rewrite Dv. reflexivity.
Qed.
(** After the digits. *)
Definition ends_number (f : list Z) : Prop := match f with c :: _ => dv c < 0 /\ c <> 72 | [] => True end.
Lemma loop_end : forall arith f fuel hex a b s, At s f -> ends_number f ->
  hugeint_loop (S (S fuel)) arith hex false a b s = Ok (hex, a, b, s).
Proof.
  intros arith f fuel hex a b s H E. cbn [hugeint_loop]. rewrite (At_ready _ _ H). destruct f as [|c f]; [reflexivity|]. cbn [andb negb].
  rewrite (At_next _ _ _ H). destruct E as [E1 E2]. unfold dv in E1. destruct (digit_of c) as [d hx] eqn:D. cbn [fst] in E1. replace (d >=? 0) with false by lia.
  replace (c =? 72) with false by lia. assert (hx = false).
  { unfold digit_of in D. change 15 with (Z.ones 4) in D. rewrite Z.land_ones in D by lia. change (2 ^ 4) with 16 in D.
    destruct ((48 <=? c) && (c <=? 57)); [inversion D; auto|]. destruct ((97 <=? c) && (c <=? 102) || (65 <=? c) && (c <=? 70)); inversion D; auto. lia. }
  subst hx. rewrite orb_false_r. reflexivity.
Qed.
Lemma loop_H : forall arith f fuel hex a b s, At s (72 :: f) ->
  exists s', At s' f /\ done s' = done s /\ hugeint_loop (S (S fuel)) arith hex false a b s = Ok (true, a, b, s').
Proof.
  intros arith f fuel hex a b s H. destruct (ReadChar_At _ _ _ H) as [A B]. exists (ReadChar s). split; auto. split; auto. cbn [hugeint_loop].
  rewrite (At_ready _ _ H), (At_next _ _ _ H). cbn [andb negb]. change (digit_of 72) with (-1, false). change (-1 >=? 0) with false. change (72 =? 72) with true. cbv iota. rewrite andb_false_r. reflexivity.
Qed.

(** * Lines *)
Lemma line_loop_spec : forall t f fuel s p q, At s (t ++ f) -> Forall (fun c => c <> 13 /\ c <> 10) t -> zlen t < zlen q -> (length t < fuel)%nat ->
  match f with c :: _ => c = 13 \/ c = 10 \/ zlen q = zlen t + 1 | [] => True end ->
  exists s' q', line_loop fuel (p ++ q) (zlen p) s = Ok ((p ++ t) ++ q', zlen (p ++ t), s') /\ At s' f /\ done s' = done s /\ zlen q = zlen t + zlen q'.
Proof.
  induction t as [|c t IH]; intros f fuel s p q H F L Fu E; (destruct fuel as [|fuel]; [lia|]); cbn [line_loop].
  - cbn [app] in H. exists s, q. rewrite !app_nil_r. split; [|auto]. rewrite (At_ready _ _ H). destruct f as [|c f]; [reflexivity|]. rewrite (At_next _ _ _ H). cbn [andb].
    rewrite zlen_app. rewrite zlen_nil in *. destruct (c =? 13) eqn:A, (c =? 10) eqn:B; cbn [negb andb]; try reflexivity. replace (zlen p <? zlen p + zlen q - 1) with false by lia. reflexivity.
  - cbn [app] in H. inversion F; subst. rewrite zlen_cons in L. pose proof (zlen_nonneg _ t). destruct q as [|y q]; [rewrite zlen_nil in L; lia|]. rewrite zlen_cons in L.
    rewrite (At_ready _ _ H), (At_next _ _ _ H). replace (c =? 13) with false by lia. replace (c =? 10) with false by lia. cbn [negb andb].
    rewrite zlen_app, zlen_cons. replace (zlen p <? zlen p + (1 + zlen q) - 1) with true by lia. rewrite setA_at, bind_ok.
    destruct (ReadChar_At _ _ _ H) as [A B].
    destruct (IH f fuel (ReadChar s) (p ++ [c]) q) as (s' & q' & C & D & G & K); auto; [lia|cbn [length] in Fu; lia| |].
    { destruct f; auto. rewrite !zlen_cons in E. lia. }
    exists s', q'. replace (p ++ c :: q) with ((p ++ [c]) ++ q) by (rewrite <- app_assoc; reflexivity).
    replace (zlen p + 1) with (zlen (p ++ [c])) by (rewrite zlen_app; reflexivity). rewrite C. rewrite <- !app_assoc. cbn [app]. split; auto. split; auto. split; [congruence|]. rewrite !zlen_cons. lia.
Qed.
(** Every input is the text of a line of at most n characters and the rest. *)
Lemma split_line : forall n l, exists t f, l = t ++ f /\ Forall (fun c => c <> 13 /\ c <> 10) t /\ (length t <= n)%nat /\
  match f with c :: _ => c = 13 \/ c = 10 \/ length t = n | [] => True end.
Proof.
  induction n as [|n IH]; intro l.
  - exists [], l. split; auto. split; auto. split; auto. destruct l; auto.
  - destruct l as [|c l]; [exists [], []; repeat split; auto; cbn [length]; lia|]. destruct (Z.eq_dec c 13) as [E|E]; [exists [], (c :: l); repeat split; auto; cbn [length]; lia|].
    destruct (Z.eq_dec c 10) as [E'|E']; [exists [], (c :: l); repeat split; auto; cbn [length]; lia|].
    destruct (IH l) as (t & f & A & B & C & D). exists (c :: t), f. split; [cbn [app]; congruence|]. split; [constructor; auto|]. cbn [length]. split; [lia|]. destruct f; auto. lia.
Qed.

(** * Quoted strings *)
Lemma string_loop_spec : forall t f fuel s p q, At s (t ++ f) -> Forall (fun c => 32 <= c /\ c <> 34) t -> zlen t < zlen q -> (length t < fuel)%nat ->
  match f with c :: _ => c < 32 \/ c = 34 \/ zlen q = zlen t + 1 | [] => True end ->
  exists s' q', string_loop fuel (p ++ q) (zlen p) s = Ok ((p ++ t) ++ q', zlen (p ++ t), s') /\ At s' f /\ done s' = done s /\ zlen q = zlen t + zlen q'.
Proof.
  induction t as [|c t IH]; intros f fuel s p q H F L Fu E; (destruct fuel as [|fuel]; [lia|]); cbn [string_loop].
  - cbn [app] in H. exists s, q. rewrite !app_nil_r. split; [|auto]. rewrite (At_ready _ _ H). destruct f as [|c f]; [reflexivity|]. rewrite (At_next _ _ _ H). cbn [andb].
    rewrite zlen_app. rewrite zlen_nil in *. destruct (zlen p <? zlen p + zlen q - 1) eqn:A, (32 <=? c) eqn:B, (c =? 34) eqn:C; cbn [negb andb]; try reflexivity. lia.
  - cbn [app] in H. inversion F; subst. rewrite zlen_cons in L. pose proof (zlen_nonneg _ t). destruct q as [|y q]; [rewrite zlen_nil in L; lia|]. rewrite zlen_cons in L.
    rewrite (At_ready _ _ H), (At_next _ _ _ H). replace (32 <=? c) with true by lia. replace (c =? 34) with false by lia.
    rewrite zlen_app, zlen_cons. replace (zlen p <? zlen p + (1 + zlen q) - 1) with true by lia. cbn [negb andb]. rewrite setA_at, bind_ok.
    destruct (ReadChar_At _ _ _ H) as [A B].
    destruct (IH f fuel (ReadChar s) (p ++ [c]) q) as (s' & q' & C & D & G & K); auto; [lia|cbn [length] in Fu; lia| |].
    { destruct f; auto. rewrite !zlen_cons in E. lia. }
    exists s', q'. replace (p ++ c :: q) with ((p ++ [c]) ++ q) by (rewrite <- app_assoc; reflexivity).
    replace (zlen p + 1) with (zlen (p ++ [c])) by (rewrite zlen_app; reflexivity). rewrite C. rewrite <- !app_assoc. cbn [app]. split; auto. split; auto. split; [congruence|]. rewrite !zlen_cons. lia.
Qed.
Lemma split_string : forall n l, exists t f, l = t ++ f /\ Forall (fun c => 32 <= c /\ c <> 34) t /\ (length t <= n)%nat /\
  match f with c :: _ => c < 32 \/ c = 34 \/ length t = n | [] => True end.
Proof.
  induction n as [|n IH]; intro l.
  - exists [], l. split; auto. split; auto. split; auto. destruct l; auto.
  - destruct l as [|c l]; [exists [], []; repeat split; auto; cbn [length]; lia|]. destruct (Z_lt_le_dec c 32) as [E|E]; [exists [], (c :: l); repeat split; auto; cbn [length]; lia|].
    destruct (Z.eq_dec c 34) as [E'|E']; [exists [], (c :: l); repeat split; auto; cbn [length]; lia|].
    destruct (IH l) as (t & f & A & B & C & D). exists (c :: t), f. split; [cbn [app]; congruence|]. split; [constructor; auto|]. cbn [length]. split; [lia|]. destruct f; auto. lia.
Qed.
