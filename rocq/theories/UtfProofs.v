(** Lemmas for C69. *)
From Verif Require Import Base ArrZ OpsProps UtfModel UtfSpec.
Ltac Zify.zify_post_hook ::= Z.to_euclidean_division_equations.

Lemma AND_ones : forall i w n a, model i w -> ucs a -> 0 <= n <= 6 -> AND w a (2 ^ n - 1) = a mod 2 ^ n.
Proof.
  intros i w n a M A N. unfold AND, ucs in *.
  assert (W : 31 < w) by (destruct M as [[_ ->]|[_ ->]]; lia).
  assert (P : 2 ^ 31 < 2 ^ w) by (apply Z.pow_lt_mono_r; lia).
  assert (P1 : 2 ^ 31 <= 2 ^ (w - 1)) by (apply Z.pow_le_mono_r; lia).
  assert (Q : 1 <= 2 ^ n <= 2 ^ 6) by (split; [change 1 with (2 ^ 0)|]; apply Z.pow_le_mono_r; lia).
  change (2 ^ 6) with 64 in Q. change (2 ^ 31) with 2147483648 in *.
  rewrite (wrap_u_id w a) by (unfold in_uint; lia). rewrite (wrap_u_id w (2 ^ n - 1)) by (unfold in_uint; lia).
  replace (2 ^ n - 1) with (Z.ones n) by (rewrite Z.ones_equiv; lia). rewrite Z.land_ones by lia.
  apply wrap_s_id; [lia|]. unfold in_int. pose proof (Z.mod_pos_bound a (2 ^ n)). lia.
Qed.
Lemma short_small : forall i w x, model i w -> 0 <= x < 256 -> wrap_s i x = x.
Proof.
  intros i w x M X. apply wrap_s_id; [destruct M as [[-> _]|[-> _]]; lia|].
  destruct M as [[-> _]|[-> _]]; unfold in_int; lia.
Qed.

(** * Encoding *)
Lemma enc_step : forall k w i u b m x buf, enc_loop (S k) w i u b m x buf =
  if u >? x then
    let* buf1 := setA buf b (chr (128 + wrap_s i (AND w u 63))) in
    enc_loop k w i (u / 64) (b + 1) (m / 2) (x / 2) buf1
  else Ok (u, b, m, buf).
Proof. reflexivity. Qed.
Lemma set0 : forall a b c d e f x : Z, setA [a; b; c; d; e; f] 0 x = Ok [x; b; c; d; e; f]. Proof. reflexivity. Qed.
Lemma set1 : forall a b c d e f x : Z, setA [a; b; c; d; e; f] 1 x = Ok [a; x; c; d; e; f]. Proof. reflexivity. Qed.
Lemma set2 : forall a b c d e f x : Z, setA [a; b; c; d; e; f] 2 x = Ok [a; b; x; d; e; f]. Proof. reflexivity. Qed.
Lemma set3 : forall a b c d e f x : Z, setA [a; b; c; d; e; f] 3 x = Ok [a; b; c; x; e; f]. Proof. reflexivity. Qed.
Lemma set4 : forall a b c d e f x : Z, setA [a; b; c; d; e; f] 4 x = Ok [a; b; c; d; x; f]. Proof. reflexivity. Qed.
Lemma set5 : forall a b c d e f x : Z, setA [a; b; c; d; e; f] 5 x = Ok [a; b; c; d; e; x]. Proof. reflexivity. Qed.

Lemma cont : forall i w u, model i w -> 0 <= u < 2 ^ 31 -> chr (128 + wrap_s i (AND w u 63)) = 128 + u mod 64.
Proof.
  intros i w u M U. change 63 with (2 ^ 6 - 1). rewrite (AND_ones i w 6 u M) by (unfold ucs; lia).
  change (2 ^ 6) with 64. rewrite (short_small i w) by (auto; lia). unfold chr. lia.
Qed.
Lemma last_byte : forall i w m u lo, model i w -> 0 <= u < 256 -> (m + u) mod 256 = lo + u -> chr (m + wrap_s i u) = lo + u.
Proof. intros i w m u lo M U H. rewrite (short_small i w) by auto. exact H. Qed.

Lemma enc_body : forall i w u, model i w -> 128 <= u < 2 ^ 31 ->
  exists u1 byte mask buf buf1,
    enc_loop 8 w i u 0 32640 63 [0; 0; 0; 0; 0; 0] = Ok (u1, byte, mask, buf) /\
    setA buf byte (chr (mask + wrap_s i u1)) = Ok buf1 /\
    byte + 1 = zlen (utf8 u) /\ exists z, buf1 = rev (utf8 u) ++ z.
Proof.
  intros i w u M U. change (2 ^ 31) with 2147483648 in U.
  assert (D1 : u / 2 ^ 6 = u / 64) by reflexivity.
  assert (D2 : u / 2 ^ 12 = u / 64 / 64) by (rewrite Z.div_div by lia; reflexivity).
  assert (D3 : u / 2 ^ 18 = u / 64 / 64 / 64) by (rewrite !Z.div_div by lia; reflexivity).
  assert (D4 : u / 2 ^ 24 = u / 64 / 64 / 64 / 64) by (rewrite !Z.div_div by lia; reflexivity).
  assert (D5 : u / 2 ^ 30 = u / 64 / 64 / 64 / 64 / 64) by (rewrite !Z.div_div by lia; reflexivity).
  assert (M6 : forall x, x mod 2 ^ 6 = x mod 64) by reflexivity.
  unfold utf8. rewrite D1, D2, D3, D4, D5, !M6.
  destruct (u <? 128) eqn:C0; [apply Z.ltb_lt in C0; lia|]. clear C0 D1 D2 D3 D4 D5 M6.
  set (v1 := u / 64). set (v2 := v1 / 64). set (v3 := v2 / 64). set (v4 := v3 / 64). set (v5 := v4 / 64).
  assert (B1 : 2 <= v1 < 33554432) by (unfold v1; lia).
  assert (B2 : 0 <= v2 < 524288) by (unfold v2; lia).
  assert (B3 : 0 <= v3 < 8192) by (unfold v3; lia).
  assert (B4 : 0 <= v4 < 128) by (unfold v4; lia).
  assert (B5 : 0 <= v5 < 2) by (unfold v5; lia).
  rewrite enc_step. rewrite (proj2 (Z.gtb_lt u 63)) by lia. rewrite set0. cbn [bind].
  rewrite (cont i w) by (auto; lia). fold v1. change (0 + 1) with 1. change (32640 / 2) with 16320. change (63 / 2) with 31.
  rewrite enc_step.
  destruct (u <? 2048) eqn:C1.
  { apply Z.ltb_lt in C1. assert (v1 <= 31) by (unfold v1; lia).
    rewrite Z.gtb_ltb, (proj2 (Z.ltb_ge 31 v1)) by lia. do 5 eexists. split; [reflexivity|].
    rewrite (last_byte i w 16320 v1 192) by (auto; lia). rewrite set1. split; [reflexivity|]. split; [reflexivity|].
    eexists. reflexivity. }
  apply Z.ltb_ge in C1. assert (32 <= v1) by (unfold v1; lia).
  rewrite (proj2 (Z.gtb_lt v1 31)) by lia. rewrite set1. cbn [bind].
  rewrite (cont i w) by (auto; lia). fold v2. change (1 + 1) with 2. change (16320 / 2) with 8160. change (31 / 2) with 15.
  rewrite enc_step.
  destruct (u <? 65536) eqn:C2.
  { apply Z.ltb_lt in C2. assert (v2 <= 15) by (unfold v2, v1; lia).
    rewrite Z.gtb_ltb, (proj2 (Z.ltb_ge 15 v2)) by lia. do 5 eexists. split; [reflexivity|].
    rewrite (last_byte i w 8160 v2 224) by (auto; lia). rewrite set2. split; [reflexivity|]. split; [reflexivity|].
    eexists. reflexivity. }
  apply Z.ltb_ge in C2. assert (16 <= v2) by (unfold v2, v1; lia).
  rewrite (proj2 (Z.gtb_lt v2 15)) by lia. rewrite set2. cbn [bind].
  rewrite (cont i w) by (auto; lia). fold v3. change (2 + 1) with 3. change (8160 / 2) with 4080. change (15 / 2) with 7.
  rewrite enc_step.
  destruct (u <? 2097152) eqn:C3.
  { apply Z.ltb_lt in C3. assert (v3 <= 7) by (unfold v3, v2, v1; lia).
    rewrite Z.gtb_ltb, (proj2 (Z.ltb_ge 7 v3)) by lia. do 5 eexists. split; [reflexivity|].
    rewrite (last_byte i w 4080 v3 240) by (auto; lia). rewrite set3. split; [reflexivity|]. split; [reflexivity|].
    eexists. reflexivity. }
  apply Z.ltb_ge in C3. assert (8 <= v3) by (unfold v3, v2, v1; lia).
  rewrite (proj2 (Z.gtb_lt v3 7)) by lia. rewrite set3. cbn [bind].
  rewrite (cont i w) by (auto; lia). fold v4. change (3 + 1) with 4. change (4080 / 2) with 2040. change (7 / 2) with 3.
  rewrite enc_step.
  destruct (u <? 67108864) eqn:C4.
  { apply Z.ltb_lt in C4. assert (v4 <= 3) by (unfold v4, v3, v2, v1; lia).
    rewrite Z.gtb_ltb, (proj2 (Z.ltb_ge 3 v4)) by lia. do 5 eexists. split; [reflexivity|].
    rewrite (last_byte i w 2040 v4 248) by (auto; lia). rewrite set4. split; [reflexivity|]. split; [reflexivity|].
    eexists. reflexivity. }
  apply Z.ltb_ge in C4. assert (4 <= v4) by (unfold v4, v3, v2, v1; lia).
  rewrite (proj2 (Z.gtb_lt v4 3)) by lia. rewrite set4. cbn [bind].
  rewrite (cont i w) by (auto; lia). fold v5. change (4 + 1) with 5. change (2040 / 2) with 1020. change (3 / 2) with 1.
  rewrite enc_step. rewrite Z.gtb_ltb, (proj2 (Z.ltb_ge 1 v5)) by lia. do 5 eexists. split; [reflexivity|].
  rewrite (last_byte i w 1020 v5 252) by (auto; lia). rewrite set5. split; [reflexivity|]. split; [reflexivity|].
  eexists. reflexivity.
Qed.

Lemma enc_copy_ok : forall todo done z p q old byte, zlen old = zlen todo ->
  byte + 1 = zlen (done ++ todo) ->
  enc_copy (length todo) (zlen done) (p ++ done ++ old ++ q) (rev (done ++ todo) ++ z) (zlen p) byte =
  Ok (p ++ done ++ todo ++ q).
Proof.
  induction todo as [|c todo IH]; intros done z p q old byte L B.
  - destruct old; [reflexivity|]. rewrite zlen_cons, zlen_nil in L. pose proof (zlen_nonneg _ old). lia.
  - destruct old as [|o old]; [rewrite zlen_cons, zlen_nil in L; pose proof (zlen_nonneg _ todo); lia|].
    cbn [length enc_copy].
    assert (G : getA (rev (done ++ c :: todo) ++ z) (byte - zlen done) = Ok c).
    { rewrite rev_app_distr. cbn [rev]. rewrite <- !app_assoc. cbn [app].
      replace (byte - zlen done) with (zlen (rev todo)); [apply getA_at|].
      rewrite zlen_app, zlen_cons in B. unfold zlen in *. rewrite rev_length. lia. }
    rewrite G. cbn [bind].
    replace (p ++ done ++ (o :: old) ++ q) with ((p ++ done) ++ o :: (old ++ q)) by (rewrite <- !app_assoc; reflexivity).
    replace (zlen p + zlen done) with (zlen (p ++ done)) by apply zlen_app.
    rewrite setA_at. cbn [bind].
    replace ((p ++ done) ++ c :: old ++ q) with (p ++ (done ++ [c]) ++ old ++ q) by (rewrite <- !app_assoc; reflexivity).
    replace (done ++ c :: todo) with ((done ++ [c]) ++ todo) by (rewrite <- app_assoc; reflexivity).
    replace (zlen done + 1) with (zlen (done ++ [c])) by (rewrite zlen_app, zlen_cons, zlen_nil; lia).
    rewrite IH.
    + rewrite <- !app_assoc. reflexivity.
    + rewrite !zlen_cons in L. lia.
    + rewrite <- app_assoc. exact B.
Qed.

Lemma utf8_len : forall u, 1 <= zlen (utf8 u) <= 6.
Proof. intros u. unfold utf8. repeat destruct (_ <? _); cbn; lia. Qed.

Lemma encode_ok : forall i w u p old o q, model i w -> ucs u -> zlen old = zlen (utf8 u) ->
  UCStoUTF8 w i u (p ++ old ++ o :: q) (zlen p) = Ok (true, p ++ utf8 u ++ 0 :: q, zlen p + zlen (utf8 u)).
Proof.
  intros i w u p old o q M U L. unfold UCStoUTF8. rewrite !zlen_app, zlen_cons.
  pose proof (zlen_nonneg _ q). pose proof (zlen_nonneg _ p). pose proof (utf8_len u).
  destruct (u <=? 127) eqn:C.
  - apply Z.leb_le in C. unfold ucs in U.
    assert (E : utf8 u = [u]) by (unfold utf8; rewrite (proj2 (Z.ltb_lt _ _)) by lia; reflexivity). rewrite E in *.
    change (zlen [u]) with 1 in *. rewrite (proj2 (Z.ltb_lt _ _)) by lia.
    destruct old as [|x [|y old]]; [rewrite zlen_nil in L; lia| |].
    2:{ rewrite !zlen_cons in L. pose proof (zlen_nonneg _ old). lia. }
    cbn [app]. rewrite setA_at. cbn [bind].
    rewrite (short_small i w) by (auto; lia). replace (chr u) with u by (unfold chr; lia).
    replace (p ++ u :: o :: q) with ((p ++ [u]) ++ o :: q) by (rewrite <- app_assoc; reflexivity).
    replace (zlen p + 1) with (zlen (p ++ [u])) by (rewrite zlen_app, zlen_cons, zlen_nil; lia).
    rewrite setA_at. cbn [bind]. rewrite <- app_assoc. reflexivity.
  - apply Z.leb_gt in C. destruct (enc_body i w u M) as (u1 & byte & mask & buf & buf1 & EL & ST & BY & z & BUF).
    { unfold ucs in U. lia. }
    rewrite EL. cbn [bind]. rewrite ST. cbn [bind]. rewrite (proj2 (Z.ltb_lt _ _)) by lia.
    pose proof (enc_copy_ok (utf8 u) [] z p (o :: q) old byte L BY) as EC. cbn [app] in EC. rewrite zlen_nil in EC.
    rewrite BY. unfold zlen at 1. rewrite Nat2Z.id, BUF, EC. cbn [bind].
    replace (p ++ utf8 u ++ o :: q) with ((p ++ utf8 u) ++ o :: q) by (rewrite <- app_assoc; reflexivity).
    replace (zlen p + byte + 1) with (zlen (p ++ utf8 u)) by (rewrite zlen_app; lia).
    rewrite setA_at. cbn [bind]. rewrite zlen_app, <- app_assoc. reflexivity.
Qed.
Lemma encode_full : forall i w u a pos, model i w -> ucs u -> zlen a <= pos + zlen (utf8 u) ->
  UCStoUTF8 w i u a pos = Ok (false, a, pos).
Proof.
  intros i w u a pos M U L. unfold UCStoUTF8. destruct (u <=? 127) eqn:C.
  - apply Z.leb_le in C. unfold ucs in U.
    assert (E : utf8 u = [u]) by (unfold utf8; rewrite (proj2 (Z.ltb_lt _ _)) by lia; reflexivity).
    rewrite E in L. change (zlen [u]) with 1 in L. rewrite (proj2 (Z.ltb_ge _ _)) by lia. reflexivity.
  - apply Z.leb_gt in C. destruct (enc_body i w u M) as (u1 & byte & mask & buf & buf1 & EL & ST & BY & z & BUF).
    { unfold ucs in U. lia. }
    rewrite EL. cbn [bind]. rewrite ST. cbn [bind]. rewrite (proj2 (Z.ltb_ge _ _)) by lia. reflexivity.
Qed.

(** * Decoding *)
Lemma lead_ok : forall i w b, model i w -> 192 <= b < 254 ->
  lead 8 w 2 63 (wrap_u w b) =
  Ok (if b <? 224 then (2, 63) else if b <? 240 then (3, 31) else if b <? 248 then (4, 15)
      else if b <? 252 then (5, 7) else (6, 3)).
Proof.
  intros i w b M B.
  assert (WW : w = 32 \/ w = 64) by (destruct M as [[_ ->]|[_ ->]]; auto).
  assert (W : wrap_u w b = b) by (apply wrap_u_id; unfold in_uint; destruct WW as [-> | ->]; lia).
  rewrite W. clear W M.
  assert (IN : forall k, 0 <= k < 8 -> inset w k b = ((b / 2 ^ k) mod 2 =? 1)).
  { intros k K. unfold inset. rewrite Z.testbit_eqb by lia.
    rewrite (proj2 (Z.leb_le 0 k)), (proj2 (Z.ltb_lt k w)) by (destruct WW; lia). reflexivity. }
  assert (ST : forall k y m, lead (S k) w y m b = if inset w (7 - y) b then lead k w (y + 1) (m / 2) b else Ok (y, m)) by reflexivity.
  assert (I5 : inset w 5 b = (224 <=? b)).
  { rewrite IN by lia. change (2 ^ 5) with 32. destruct (224 <=? b) eqn:E; [apply Z.leb_le in E; apply Z.eqb_eq|apply Z.leb_gt in E; apply Z.eqb_neq]; lia. }
  rewrite ST. change (7 - 2) with 5. rewrite I5.
  destruct (b <? 224) eqn:C1; [apply Z.ltb_lt in C1; rewrite (proj2 (Z.leb_gt 224 b)) by lia; reflexivity|].
  apply Z.ltb_ge in C1. rewrite (proj2 (Z.leb_le 224 b)) by lia. change (2 + 1) with 3. change (63 / 2) with 31.
  assert (I4 : inset w 4 b = (240 <=? b)).
  { rewrite IN by lia. change (2 ^ 4) with 16. destruct (240 <=? b) eqn:E; [apply Z.leb_le in E; apply Z.eqb_eq|apply Z.leb_gt in E; apply Z.eqb_neq]; lia. }
  rewrite ST. change (7 - 3) with 4. rewrite I4.
  destruct (b <? 240) eqn:C2; [apply Z.ltb_lt in C2; rewrite (proj2 (Z.leb_gt 240 b)) by lia; reflexivity|].
  apply Z.ltb_ge in C2. rewrite (proj2 (Z.leb_le 240 b)) by lia. change (3 + 1) with 4. change (31 / 2) with 15.
  assert (I3 : inset w 3 b = (248 <=? b)).
  { rewrite IN by lia. change (2 ^ 3) with 8. destruct (248 <=? b) eqn:E; [apply Z.leb_le in E; apply Z.eqb_eq|apply Z.leb_gt in E; apply Z.eqb_neq]; lia. }
  rewrite ST. change (7 - 4) with 3. rewrite I3.
  destruct (b <? 248) eqn:C3; [apply Z.ltb_lt in C3; rewrite (proj2 (Z.leb_gt 248 b)) by lia; reflexivity|].
  apply Z.ltb_ge in C3. rewrite (proj2 (Z.leb_le 248 b)) by lia. change (4 + 1) with 5. change (15 / 2) with 7.
  assert (I2 : inset w 2 b = (252 <=? b)).
  { rewrite IN by lia. change (2 ^ 2) with 4. destruct (252 <=? b) eqn:E; [apply Z.leb_le in E; apply Z.eqb_eq|apply Z.leb_gt in E; apply Z.eqb_neq]; lia. }
  rewrite ST. change (7 - 5) with 2. rewrite I2.
  destruct (b <? 252) eqn:C4; [apply Z.ltb_lt in C4; rewrite (proj2 (Z.leb_gt 252 b)) by lia; reflexivity|].
  apply Z.ltb_ge in C4. rewrite (proj2 (Z.leb_le 252 b)) by lia. change (5 + 1) with 6. change (7 / 2) with 3.
  assert (I1 : inset w 1 b = false).
  { rewrite IN by lia. change (2 ^ 1) with 2. apply Z.eqb_neq. lia. }
  rewrite ST. change (7 - 6) with 1. rewrite I1. reflexivity.
Qed.

(** Six bits at a time. *)
Fixpoint acc (c : list Z) (u : Z) : Z := match c with [] => u | x :: r => acc r (u * 64 + (x - 128)) end.
Lemma dec_loop_ok : forall i w c b p a done r u, model i w -> a = p ++ (b :: done ++ c) ++ r ->
  Forall (fun x => 128 <= x < 192) c -> 0 <= u -> (u + 1) * 64 ^ zlen c <= 2 ^ 31 ->
  dec_loop (length c) w (1 + zlen done) a (zlen p) u = Ok (acc c u).
Proof.
  intros i w c. induction c as [|x c IH]; intros b p a done r u M A F U B; [reflexivity|].
  inversion F as [|? ? X F']; subst x0 l. cbn [length dec_loop].
  assert (G : getA a (zlen p + (1 + zlen done)) = Ok x).
  { subst a. replace (p ++ (b :: done ++ x :: c) ++ r) with ((p ++ b :: done) ++ x :: c ++ r)
      by (rewrite <- !app_assoc; cbn [app]; rewrite <- !app_assoc; reflexivity).
    replace (zlen p + (1 + zlen done)) with (zlen (p ++ b :: done)) by (rewrite zlen_app, zlen_cons; lia).
    apply getA_at. }
  rewrite G. cbn [bind]. change 63 with (2 ^ 6 - 1).
  rewrite (AND_ones i w 6 x M) by (unfold ucs; lia). change (2 ^ 6) with 64.
  replace (x mod 64) with (x - 128) by lia.
  rewrite zlen_cons, Z.pow_add_r in B by (try apply zlen_nonneg; lia). change (64 ^ 1) with 64 in B.
  assert (P : 1 <= 64 ^ zlen c) by (pose proof (Z.pow_pos_nonneg 64 (zlen c)); pose proof (zlen_nonneg _ c); lia).
  assert (B1 : (u * 64 + (x - 128) + 1) * 64 ^ zlen c <= 2 ^ 31) by nia.
  rewrite chk_ok.
  - cbn [bind]. replace (1 + zlen done + 1) with (1 + zlen (done ++ [x])) by (rewrite zlen_app, zlen_cons, zlen_nil; lia).
    rewrite (IH b p a (done ++ [x]) r (u * 64 + (x - 128))); auto; [|lia].
    subst a. rewrite <- !app_assoc. reflexivity.
  - change (2 ^ 31) with 2147483648 in *. assert (u * 64 + (x - 128) < 2147483648) by nia. unfold in_int. destruct M as [[_ ->]|[_ ->]]; lia.
Qed.

Lemma decode_body : forall i w m n b c p r lo, model i w ->
  192 <= b < 254 -> lead 8 w 2 63 (wrap_u w b) = Ok (1 + zlen c, 2 ^ n - 1) -> 0 <= n <= 6 ->
  b mod 2 ^ n = b - lo -> m = b - lo -> (m + 1) * 64 ^ zlen c <= 2 ^ 31 ->
  Forall (fun x => 128 <= x < 192) c -> forall u0,
  UTF8toUCS w (p ++ (b :: c) ++ r) (zlen p) u0 = Ok (true, zlen p + (1 + zlen c), acc c m).
Proof.
  intros i w m n b c p r lo M B LD N MD Hm BD F u0. unfold UTF8toUCS.
  pose proof (zlen_nonneg _ r). pose proof (zlen_nonneg _ c). pose proof (zlen_nonneg _ p).
  assert (L : zlen (p ++ (b :: c) ++ r) = zlen p + 1 + zlen c + zlen r) by (rewrite !zlen_app, zlen_cons; lia).
  rewrite L. rewrite (proj2 (Z.ltb_lt (zlen p) _)) by lia.
  cbn [app]. rewrite getA_at. cbn [bind]. rewrite (proj2 (Z.ltb_ge b 128)) by lia.
  rewrite LD. cbn [bind]. rewrite (AND_ones i w n b M) by (unfold ucs; lia).
  rewrite (proj2 (Z.ltb_lt (zlen p + (1 + zlen c) - 1) _)) by lia.
  replace (1 + zlen c - 1) with (zlen c) by lia. unfold zlen at 1. rewrite Nat2Z.id.
  pose proof (dec_loop_ok i w c b p (p ++ b :: c ++ r) [] r m M eq_refl F) as D.
  rewrite zlen_nil in D. change (1 + 0) with 1 in D. rewrite MD, <- Hm, D; [reflexivity| |exact BD].
  subst m. rewrite <- MD. apply Z.mod_pos_bound. lia.
Qed.

Lemma decode_ok : forall i w u p r u0, model i w -> ucs u ->
  UTF8toUCS w (p ++ utf8 u ++ r) (zlen p) u0 = Ok (true, zlen p + zlen (utf8 u), u).
Proof.
  intros i w u p r u0 M U. unfold ucs in U. change (2 ^ 31) with 2147483648 in U.
  assert (D2 : u / 2 ^ 12 = u / 64 / 64) by (rewrite Z.div_div by lia; reflexivity).
  assert (D3 : u / 2 ^ 18 = u / 64 / 64 / 64) by (rewrite !Z.div_div by lia; reflexivity).
  assert (D4 : u / 2 ^ 24 = u / 64 / 64 / 64 / 64) by (rewrite !Z.div_div by lia; reflexivity).
  assert (D5 : u / 2 ^ 30 = u / 64 / 64 / 64 / 64 / 64) by (rewrite !Z.div_div by lia; reflexivity).
  unfold utf8. rewrite D2, D3, D4, D5. clear D2 D3 D4 D5. change (2 ^ 6) with 64.
  destruct (u <? 128) eqn:C0.
  { apply Z.ltb_lt in C0. unfold UTF8toUCS. rewrite !zlen_app.
    change (zlen [u]) with 1. pose proof (zlen_nonneg _ r). rewrite (proj2 (Z.ltb_lt (zlen p) _)) by lia.
    cbn [app]. rewrite getA_at. cbn [bind]. rewrite (proj2 (Z.ltb_lt u 128)) by lia. reflexivity. }
  apply Z.ltb_ge in C0.
  set (v1 := u / 64). set (v2 := v1 / 64). set (v3 := v2 / 64). set (v4 := v3 / 64). set (v5 := v4 / 64).
  assert (Q1 : u = v1 * 64 + u mod 64 /\ 0 <= u mod 64 < 64) by (unfold v1; lia).
  assert (Q2 : v1 = v2 * 64 + v1 mod 64 /\ 0 <= v1 mod 64 < 64) by (unfold v2; lia).
  assert (Q3 : v2 = v3 * 64 + v2 mod 64 /\ 0 <= v2 mod 64 < 64) by (unfold v3; lia).
  assert (Q4 : v3 = v4 * 64 + v3 mod 64 /\ 0 <= v3 mod 64 < 64) by (unfold v4; lia).
  assert (Q5 : v4 = v5 * 64 + v4 mod 64 /\ 0 <= v4 mod 64 < 64) by (unfold v5; lia).
  clearbody v1 v2 v3 v4 v5.
  revert Q1 Q2 Q3 Q4 Q5. generalize (u mod 64) (v1 mod 64) (v2 mod 64) (v3 mod 64) (v4 mod 64).
  intros m0 m1 m2 m3 m4 Q1 Q2 Q3 Q4 Q5.
  destruct (u <? 2048) eqn:C1; [apply Z.ltb_lt in C1|apply Z.ltb_ge in C1].
  { erewrite (decode_body i w v1 6 (192 + v1) _ p r 192 M).
    - apply f_equal. f_equal. cbn [acc]. lia.
    - lia.
    - rewrite (lead_ok i w) by (auto; lia). rewrite (proj2 (Z.ltb_lt _ 224)) by lia. reflexivity.
    - lia.
    - change (2 ^ 6) with 64. lia.
    - lia.
    - change ((v1 + 1) * 64 <= 2147483648). lia.
    - repeat constructor; lia. }
  destruct (u <? 65536) eqn:C2; [apply Z.ltb_lt in C2|apply Z.ltb_ge in C2].
  { erewrite (decode_body i w v2 5 (224 + v2) _ p r 224 M).
    - apply f_equal. f_equal. cbn [acc]. lia.
    - lia.
    - rewrite (lead_ok i w) by (auto; lia). rewrite (proj2 (Z.ltb_ge _ 224)), (proj2 (Z.ltb_lt _ 240)) by lia. reflexivity.
    - lia.
    - change (2 ^ 5) with 32. lia.
    - lia.
    - change ((v2 + 1) * 4096 <= 2147483648). lia.
    - repeat constructor; lia. }
  destruct (u <? 2097152) eqn:C3; [apply Z.ltb_lt in C3|apply Z.ltb_ge in C3].
  { erewrite (decode_body i w v3 4 (240 + v3) _ p r 240 M).
    - apply f_equal. f_equal. cbn [acc]. lia.
    - lia.
    - rewrite (lead_ok i w) by (auto; lia).
      rewrite (proj2 (Z.ltb_ge _ 224)), (proj2 (Z.ltb_ge _ 240)), (proj2 (Z.ltb_lt _ 248)) by lia. reflexivity.
    - lia.
    - change (2 ^ 4) with 16. lia.
    - lia.
    - change ((v3 + 1) * 262144 <= 2147483648). lia.
    - repeat constructor; lia. }
  destruct (u <? 67108864) eqn:C4; [apply Z.ltb_lt in C4|apply Z.ltb_ge in C4].
  { erewrite (decode_body i w v4 3 (248 + v4) _ p r 248 M).
    - apply f_equal. f_equal. cbn [acc]. lia.
    - lia.
    - rewrite (lead_ok i w) by (auto; lia).
      rewrite (proj2 (Z.ltb_ge _ 224)), (proj2 (Z.ltb_ge _ 240)), (proj2 (Z.ltb_ge _ 248)), (proj2 (Z.ltb_lt _ 252)) by lia. reflexivity.
    - lia.
    - change (2 ^ 3) with 8. lia.
    - lia.
    - change ((v4 + 1) * 16777216 <= 2147483648). lia.
    - repeat constructor; lia. }
  erewrite (decode_body i w v5 2 (252 + v5) _ p r 252 M).
  - apply f_equal. f_equal. cbn [acc]. lia.
  - lia.
  - rewrite (lead_ok i w) by (auto; lia).
    rewrite (proj2 (Z.ltb_ge _ 224)), (proj2 (Z.ltb_ge _ 240)), (proj2 (Z.ltb_ge _ 248)), (proj2 (Z.ltb_ge _ 252)) by lia. reflexivity.
  - lia.
  - change (2 ^ 2) with 4. lia.
  - lia.
  - change ((v5 + 1) * 1073741824 <= 2147483648). lia.
  - repeat constructor; lia.
Qed.
