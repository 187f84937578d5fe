(** C64: conversions between integers and strings in the ooc library. *)
From Verif Require Import Base ArrZ CStrModel CStrProofs OutSpec OutProofs IntStrModel.

(** ** Specification *)

(** A sign and the digits behind it. *)
Definition blank (c : Z) : Prop := In c [32; 9; 10; 11; 12; 13].
Definition digit (c : Z) : Prop := 48 <= c <= 57.
(** [whole s v]: blanks, an optional sign and at least one decimal digit; the number is [v]. *)
Inductive whole : list Z -> Z -> Prop :=
| whole_pos sp sg ds v : Forall blank sp -> sg = [] \/ sg = [43] -> ds <> [] -> numeral 10 ds v -> whole (sp ++ sg ++ ds) v
| whole_neg sp ds v : Forall blank sp -> ds <> [] -> numeral 10 ds v -> whole (sp ++ 45 :: ds) (- v).
(** The two type models. *)
Definition model (w wi : Z) : Prop := w = 32 /\ wi = 16 \/ w = 64 /\ wi = 32.
(** A string argument: terminated, and not so long that INTEGER cannot count it. *)
Definition string_arg (wi : Z) (a s : list Z) : Prop := str_of a = s /\ terminated a /\ zlen s < max_int wi.

(** ** Scanning *)
Lemma INC_ok : forall w wi i, model w wi -> 0 <= i < max_int wi -> INC wi i = Ok (i + 1).
Proof.
  intros w wi i [[-> ->] | [-> ->]] H; unfold INC; cbn [Z.ltb Z.compare Pos.compare Pos.compare_cont].
  - rewrite wrap_s_id; [reflexivity | lia | apply in_int16; change (max_int 16) with 32767 in H; lia].
  - apply chk_ok, in_int32. change (max_int 32) with 2147483647 in H. lia.
Qed.
Definition upd (pos : bool) (v c : Z) : Z := if pos then v * 10 + (c - 48) else v * 10 - (c - 48).
Definition val (pos : bool) (v : Z) (ds : list Z) : Z := fold_left (upd pos) ds v.
Definition dir (pos : bool) (v : Z) : Prop := if pos then 0 <= v else v <= 0.

Lemma add_digit_ok : forall w wi pos v c, model w wi -> in_int w v -> dir pos v -> digit c ->
  add_digit w pos v (c - 48) = Ok (if in_intb w (upd pos v c) then Some (upd pos v c) else None).
Proof.
  intros w wi pos v c M I D C. unfold digit in C. unfold add_digit, upd, dir in *. assert (W : max_int w = - min_int w - 1 /\ (forall x, in_int w x <-> min_int w <= x <= max_int w) /\ min_int w <= -100000 /\ (max_int w) mod 10 = 7).
  { unfold max_int, min_int, in_int. destruct M as [[-> _] | [-> _]]; cbn - [Z.modulo]; (split; [reflexivity |]); (split; [intros; lia |]); split; try lia; reflexivity. }
  destruct W as (W1 & W2 & W3 & W4). clear M. apply W2 in I. set (mi := min_int w) in *. set (ma := max_int w) in *. clearbody mi ma.
  assert (CK : forall x, mi <= x <= ma -> chk w x = Ok x) by (intros; apply chk_ok, W2; lia).
  assert (B : forall x, in_intb w x = (mi <=? x) && (x <=? ma)).
  { intros x. destruct (in_intb w x) eqn:E; [apply in_intb_iff in E; apply W2 in E; lia |]. destruct ((mi <=? x) && (x <=? ma)) eqn:F; [| reflexivity]. assert (in_int w x) by (apply W2; lia). apply in_intb_iff in H. congruence. }
  rewrite B. destruct pos.
  - rewrite CK by lia. cbn [bind]. destruct (Z.gtb_spec v ((ma - (c - 48)) / 10)).
    + replace ((mi <=? v * 10 + (c - 48)) && (v * 10 + (c - 48) <=? ma)) with false by lia. reflexivity.
    + rewrite CK by lia. cbn [bind]. rewrite CK by lia. replace ((mi <=? v * 10 + (c - 48)) && (v * 10 + (c - 48) <=? ma)) with true by lia. reflexivity.
  - rewrite CK by lia. cbn [bind]. destruct (Z.gtb_spec v ((mi + (c - 48)) / 10)).
    + rewrite CK by lia. cbn [bind]. rewrite CK by lia. replace ((mi <=? v * 10 - (c - 48)) && (v * 10 - (c - 48) <=? ma)) with true by lia. reflexivity.
    + destruct ((v <? (mi + (c - 48)) / 10) || ((v =? (mi + (c - 48)) / 10) && negb ((mi + (c - 48)) mod 10 =? 0))) eqn:Q.
      * replace ((mi <=? v * 10 - (c - 48)) && (v * 10 - (c - 48) <=? ma)) with false by lia. reflexivity.
      * rewrite CK by lia. cbn [bind]. rewrite CK by lia. replace ((mi <=? v * 10 - (c - 48)) && (v * 10 - (c - 48) <=? ma)) with true by lia. reflexivity.
Qed.

Lemma upd_dir : forall pos v c, dir pos v -> digit c -> dir pos (upd pos v c).
Proof. intros [|] v c D C; unfold dir, upd, digit in *; lia. Qed.
Lemma val_far : forall w wi pos ds v, model w wi -> dir pos v -> Forall digit ds -> in_int w (val pos v ds) -> in_int w v.
Proof.
  intros w wi pos ds. induction ds as [| c ds IH]; intros v M D F I; [exact I |]. inversion F as [| ? ? C F']; subst. apply IH in I; auto using upd_dir.
  assert (min_int w <= -100000 /\ 100000 <= max_int w /\ (forall x, in_int w x <-> min_int w <= x <= max_int w)) as (A & B & Q) by (unfold max_int, min_int, in_int; destruct M as [[-> _] | [-> _]]; cbn; (split; [lia |]); split; intros; lia).
  apply Q. apply Q in I. destruct pos; unfold dir, upd, digit in *; lia.
Qed.
Lemma numeric_digit : forall c, IsNumeric c = true <-> digit c.
Proof. intros c. unfold IsNumeric, digit. lia. Qed.
Lemma white_blank : forall c, IsWhiteSpace c = true <-> blank c.
Proof. intros c. unfold IsWhiteSpace, blank. cbn [In]. lia. Qed.

(** In state W: the digits [ds], then [c]. *)
Lemma loop_W : forall w wi pos c q, model w wi -> ~ digit c -> forall ds v p prev fuel, Forall digit ds -> dir pos v -> in_int w v -> zlen p + zlen ds <= max_int wi -> (length ds < fuel)%nat ->
  format_loop fuel w wi (p ++ ds ++ c :: q) (zlen p) SW v pos prev =
  Ok (if in_intb w (val pos v ds) then if c =? 0 then strAllRight else strWrongFormat else strOutOfRange).
Proof.
  intros w wi pos c q M NC. induction ds as [| d ds IH]; intros v p prev fuel F D I L FU; (destruct fuel as [| fuel]; [cbn in FU; lia |]); cbn [format_loop app].
  - rewrite getA_at. cbn [bind call]. unfold WState. replace (IsNumeric c) with false by (destruct (IsNumeric c) eqn:E; [apply numeric_digit in E; contradiction | reflexivity]). cbn [val fold_left].
    assert (in_intb w v = true) as -> by (apply in_intb_iff; exact I). reflexivity.
  - rewrite getA_at. cbn [bind call]. unfold WState. inversion F as [| ? ? C F']; subst. rewrite (proj2 (numeric_digit d) C). cbn [bind]. change (valid =? padding) with false. change (valid =? valid) with true. cbv iota.
    unfold digit in C. replace (d =? 45) with false by lia. replace (d =? 43) with false by lia. rewrite (add_digit_ok w wi) by assumption. cbn [bind].
    cbn [val fold_left]. fold (val pos (upd pos v d) ds). destruct (in_intb w (upd pos v d)) eqn:E.
    + rewrite zlen_cons in L. pose proof (zlen_nonneg _ ds). pose proof (zlen_nonneg _ p). rewrite (INC_ok w wi) by (auto; lia). cbn [bind].
      specialize (IH (upd pos v d) (p ++ [d]) valid fuel). rewrite zlen_app, zlen_cons, zlen_nil in IH. rewrite <- app_assoc in IH. apply IH; auto using upd_dir; [apply in_intb_iff; exact E | lia | cbn in FU; lia].
    + replace (in_intb w (val pos (upd pos v d) ds)) with false; [reflexivity |]. destruct (in_intb w (val pos (upd pos v d) ds)) eqn:E2; [| reflexivity].
      apply in_intb_iff in E2. apply (val_far w wi) in E2; auto using upd_dir. apply in_intb_iff in E2. congruence.
Qed.
(** In state SI. *)
Lemma loop_blank : forall w wi a, model w wi -> forall sp p q fuel, Forall blank sp -> a = p ++ sp ++ q -> zlen p + zlen sp <= max_int wi -> (length sp < fuel)%nat ->
  format_loop fuel w wi a (zlen p) SI 0 true padding = format_loop (fuel - length sp) w wi a (zlen (p ++ sp)) SI 0 true padding.
Proof.
  intros w wi a M. induction sp as [| d sp IH]; intros p q fuel F -> L FU; [cbn [length]; rewrite Nat.sub_0_r, app_nil_r; reflexivity |].
  destruct fuel as [| fuel]; [cbn in FU; lia |]. cbn [format_loop app]. rewrite getA_at. cbn [bind call]. inversion F as [| ? ? C F']; subst. unfold ScanInt. rewrite (proj2 (white_blank d) C). cbn [bind].
  change (padding =? padding) with true. cbv iota. rewrite zlen_cons in L. pose proof (zlen_nonneg _ sp). pose proof (zlen_nonneg _ p). rewrite (INC_ok w wi) by (auto; lia). cbn [bind length].
  rewrite Nat.sub_succ. replace (p ++ d :: sp) with ((p ++ [d]) ++ sp) by (rewrite <- app_assoc; reflexivity). rewrite <- IH with (q := q); auto; [| rewrite <- app_assoc; reflexivity | rewrite zlen_app, zlen_cons, zlen_nil; lia | cbn in FU; lia].
  rewrite zlen_app, zlen_cons, zlen_nil. do 2 f_equal.
Qed.
Lemma zlen_0 : forall A (a : list A), 0 <= zlen a. Proof. intros. apply zlen_nonneg. Qed.
Lemma length_ok : forall w wi, model w wi -> forall s p q fuel, ~ In 0 s -> zlen p + zlen s <= max_int wi -> (length s < fuel)%nat -> length_loop fuel wi (p ++ s ++ 0 :: q) (zlen p) = Ok (zlen p + zlen s).
Proof.
  intros w wi M. induction s as [| c s IH]; intros p q fuel N L FU; (destruct fuel as [| fuel]; [cbn in FU; lia |]); cbn [length_loop app].
  - rewrite zlen_app, zlen_cons. pose proof (zlen_nonneg _ q). replace (zlen p <? zlen p + (1 + zlen q)) with true by lia. rewrite getA_at. cbn [bind]. rewrite zlen_nil, Z.add_0_r. reflexivity.
  - rewrite zlen_app, zlen_cons. pose proof (zlen_nonneg _ (s ++ 0 :: q)). replace (zlen p <? zlen p + (1 + zlen (s ++ 0 :: q))) with true by lia. rewrite getA_at. cbn [bind].
    destruct (Z.eqb_spec c 0) as [-> | _]; [exfalso; apply N; left; reflexivity |]. rewrite zlen_cons in L. pose proof (zlen_nonneg _ s). pose proof (zlen_nonneg _ p). rewrite (INC_ok w wi) by (auto; lia). cbn [bind].
    specialize (IH (p ++ [c]) q fuel). rewrite <- app_assoc in IH. rewrite zlen_app, zlen_cons, zlen_nil in IH. cbn [app] in IH. rewrite Z.add_0_r in IH. rewrite IH; [rewrite zlen_cons; f_equal; lia | intro; apply N; right; assumption | lia | cbn in FU; lia].
Qed.

(** Every string is blanks, then a sign or not, then digits, then something else. *)
Fixpoint span (f : Z -> bool) (l : list Z) : list Z * list Z :=
  match l with [] => ([], []) | c :: r => if f c then let (a, b) := span f r in (c :: a, b) else ([], l) end.
Lemma span_ok : forall f l, let (a, b) := span f l in l = a ++ b /\ Forall (fun c => f c = true) a /\ match b with [] => True | c :: _ => f c = false end.
Proof.
  intros f l. induction l as [| c r IH]; cbn [span]; [auto |]. destruct (f c) eqn:E; [| auto]. destruct (span f r) as [a b]. destruct IH as (-> & A & B). auto.
Qed.
Definition sign_of (pos : bool) (sg : list Z) : Prop := if pos then sg = [] \/ sg = [43] else sg = [45].
Inductive parts : list Z -> Prop :=
| parts_none sp r : Forall blank sp -> match r with [] => True | c :: _ => ~ blank c /\ ~ digit c /\ c <> 43 /\ c <> 45 end -> parts (sp ++ r)
| parts_sign sp c r : Forall blank sp -> c = 43 \/ c = 45 -> match r with [] => True | d :: _ => ~ digit d end -> parts (sp ++ c :: r)
| parts_num sp pos sg ds r : Forall blank sp -> sign_of pos sg -> ds <> [] -> Forall digit ds -> match r with [] => True | d :: _ => ~ digit d end -> parts (sp ++ sg ++ ds ++ r).
Lemma parts_all : forall s, parts s.
Proof.
  intros s. pose proof (span_ok IsWhiteSpace s) as S1. destruct (span IsWhiteSpace s) as [sp r]. destruct S1 as (-> & B & N).
  assert (FB : Forall blank sp) by (eapply Forall_impl; [| exact B]; intros c; apply white_blank).
  destruct r as [| c r]; [apply parts_none; [exact FB | exact I] |].
  assert (NB : ~ blank c) by (intro Q; apply white_blank in Q; congruence).
  assert (D : forall l, exists ds t, l = ds ++ t /\ Forall digit ds /\ match t with [] => True | d :: _ => ~ digit d end).
  { intros l. pose proof (span_ok IsNumeric l) as S2. destruct (span IsNumeric l) as [ds t]. destruct S2 as (-> & A & Q). exists ds, t. split; [reflexivity |]. split; [eapply Forall_impl; [| exact A]; intros x; apply numeric_digit |].
    destruct t; [exact I |]. intro K. apply numeric_digit in K. congruence. }
  destruct (Z.eq_dec c 43) as [-> | N43]; [| destruct (Z.eq_dec c 45) as [-> | N45]].
  - destruct (D r) as (ds & t & -> & A & Q). destruct ds as [| d ds]; [apply (parts_sign sp 43 t); auto |]. change (sp ++ 43 :: (d :: ds) ++ t) with (sp ++ [43] ++ (d :: ds) ++ t). apply (parts_num sp true); auto; [right; reflexivity | discriminate].
  - destruct (D r) as (ds & t & -> & A & Q). destruct ds as [| d ds]; [apply (parts_sign sp 45 t); auto |]. change (sp ++ 45 :: (d :: ds) ++ t) with (sp ++ [45] ++ (d :: ds) ++ t). apply (parts_num sp false); auto; [reflexivity | discriminate].
  - destruct (D (c :: r)) as (ds & t & E & A & Q). destruct ds as [| d ds].
    + apply parts_none; [exact FB |]. cbn [app] in E. subst t. auto.
    + rewrite E. change (sp ++ (d :: ds) ++ t) with (sp ++ [] ++ (d :: ds) ++ t). apply (parts_num sp true); auto; [left; reflexivity | discriminate].
Qed.

(** What FormatInt answers, by the parts of the string. *)
Lemma format_none : forall w wi a sp r q, model w wi -> a = (sp ++ r) ++ 0 :: q -> zlen (sp ++ r) < max_int wi -> Forall blank sp -> match r with [] => True | c :: _ => ~ blank c /\ ~ digit c /\ c <> 43 /\ c <> 45 end ->
  format_loop (S (length a)) w wi a 0 SI 0 true padding = Ok strEmpty.
Proof.
  intros w wi a sp r q M E L B R. rewrite zlen_app in L. pose proof (zlen_nonneg _ r). change 0 with (zlen (@nil Z)) at 1.
  rewrite (loop_blank w wi a M sp [] (r ++ 0 :: q)); [| assumption | subst a; cbn [app]; rewrite <- app_assoc; reflexivity | rewrite zlen_nil; lia | subst a; rewrite !app_length; cbn; lia].
  cbn [app]. assert (exists fuel, (S (length a) - length sp)%nat = S fuel) as [fuel ->] by (exists (length a - length sp)%nat; subst a; rewrite !app_length; lia).
  cbn [format_loop]. subst a. rewrite <- app_assoc. destruct r as [| c r]; cbn [app]; rewrite getA_at; cbn [bind call]; unfold ScanInt.
  - reflexivity.
  - destruct R as (NB & ND & N3 & N5). destruct (IsWhiteSpace c) eqn:EW; [apply white_blank in EW; contradiction |]. destruct (IsNumeric c) eqn:EN; [apply numeric_digit in EN; contradiction |].
    replace (c =? 43) with false by lia. replace (c =? 45) with false by lia. reflexivity.
Qed.
Lemma format_sign : forall w wi a sp c r q, model w wi -> a = (sp ++ c :: r) ++ 0 :: q -> zlen (sp ++ c :: r) < max_int wi -> Forall blank sp -> c = 43 \/ c = 45 -> match r with [] => True | d :: _ => ~ digit d end ->
  format_loop (S (length a)) w wi a 0 SI 0 true padding = Ok strWrongFormat.
Proof.
  intros w wi a sp c r q M E L B C R. rewrite zlen_app, zlen_cons in L. pose proof (zlen_nonneg _ r). change 0 with (zlen (@nil Z)) at 1.
  rewrite (loop_blank w wi a M sp [] (c :: r ++ 0 :: q)); [| assumption | subst a; cbn [app]; rewrite <- app_assoc; reflexivity | rewrite zlen_nil; lia | subst a; rewrite !app_length; cbn; lia].
  cbn [app]. assert (exists fuel, (S (length a) - length sp)%nat = S (S fuel)) as [fuel ->] by (exists (length a - length sp - 1)%nat; subst a; rewrite !app_length; cbn [length]; lia).
  cbn [format_loop]. subst a. rewrite <- app_assoc. cbn [app]. rewrite getA_at. cbn [bind call]. unfold ScanInt. replace (IsWhiteSpace c) with false by (destruct C; subst; reflexivity).
  replace ((c =? 43) || (c =? 45)) with true by lia. change (valid =? padding) with false. change (valid =? valid) with true. cbv iota.
  pose proof (zlen_nonneg _ sp). rewrite (INC_ok w wi) by (auto; lia). cbn [bind].
  assert (G : forall c0 t, getA (sp ++ c :: c0 :: t) (zlen sp + 1) = Ok c0) by (intros; replace (sp ++ c :: c0 :: t) with ((sp ++ [c]) ++ c0 :: t) by (rewrite <- app_assoc; reflexivity); replace (zlen sp + 1) with (zlen (sp ++ [c])) by (rewrite zlen_app, zlen_cons, zlen_nil; lia); apply getA_at).
  destruct r as [| d r]; cbn [app].
  - destruct C; subst c; [change (43 =? 45) with false; change (43 =? 43) with true | change (45 =? 45) with true]; cbv iota; rewrite !G; reflexivity.
  - assert (IsNumeric d = false) as ND by (destruct (IsNumeric d) eqn:EN; [apply numeric_digit in EN; contradiction | reflexivity]).
    destruct C; subst c.
    + change (43 =? 45) with false. change (43 =? 43) with true. cbv iota. rewrite !G. cbn [bind call]. unfold SState. rewrite ND. reflexivity.
    + change (45 =? 45) with true. cbv iota. rewrite !G. cbn [bind call]. unfold SState. rewrite ND. reflexivity.
Qed.
(** One digit, from any of the states that take one. *)
Lemma loop_first : forall w wi a p d ds c q pos s prev fuel, model w wi -> a = p ++ (d :: ds) ++ c :: q -> ~ digit c -> Forall digit (d :: ds) -> s = SI \/ s = SS -> zlen p + zlen (d :: ds) <= max_int wi -> (length (d :: ds) < fuel)%nat ->
  format_loop fuel w wi a (zlen p) s 0 pos prev = Ok (if in_intb w (val pos 0 (d :: ds)) then if c =? 0 then strAllRight else strWrongFormat else strOutOfRange).
Proof.
  intros w wi a p d ds c q pos s prev fuel M -> NC F S0 L FU.
  assert (IN0 : in_int w 0) by (destruct M as [[-> _] | [-> _]]; unfold in_int; cbn; lia). assert (D0 : dir pos 0) by (destruct pos; cbn; lia).
  rewrite <- (loop_W w wi pos c q M NC (d :: ds) 0 p prev fuel F D0 IN0 L FU).
  destruct fuel as [| fuel]; [reflexivity |]. cbn [format_loop app]. rewrite getA_at. cbn [bind call].
  assert (call s d = Ok (valid, SW)) as ->.
  { inversion F as [| ? ? C F']; subst. destruct S0; subst s; cbn [call]; unfold ScanInt, SState; rewrite (proj2 (numeric_digit d) C); [| reflexivity].
    unfold digit in C. destruct (IsWhiteSpace d) eqn:EW; [apply white_blank in EW; unfold blank in EW; cbn [In] in EW; lia |]. replace ((d =? 43) || (d =? 45)) with false by lia. reflexivity. }
  inversion F as [| ? ? C F']; subst. unfold WState. rewrite (proj2 (numeric_digit d) C). reflexivity.
Qed.
Lemma format_num : forall w wi a sp pos sg ds r q, model w wi -> a = (sp ++ sg ++ ds ++ r) ++ 0 :: q -> zlen (sp ++ sg ++ ds ++ r) < max_int wi -> ~ In 0 r -> Forall blank sp -> sign_of pos sg -> ds <> [] -> Forall digit ds ->
  match r with [] => True | d :: _ => ~ digit d end ->
  format_loop (S (length a)) w wi a 0 SI 0 true padding = Ok (if in_intb w (val pos 0 ds) then match r with [] => strAllRight | _ => strWrongFormat end else strOutOfRange).
Proof.
  intros w wi a sp pos sg ds r q M E L NZ B SG NE F R. rewrite !zlen_app in L. pose proof (zlen_nonneg _ r). pose proof (zlen_nonneg _ sp). pose proof (zlen_nonneg _ sg). pose proof (zlen_nonneg _ ds). change 0 with (zlen (@nil Z)) at 1.
  rewrite (loop_blank w wi a M sp [] (sg ++ ds ++ r ++ 0 :: q)); [| assumption | subst a; cbn [app]; rewrite <- !app_assoc; reflexivity | rewrite zlen_nil; lia | subst a; rewrite !app_length; cbn; lia].
  cbn [app]. destruct ds as [| d ds]; [contradiction |].
  assert (exists c t, r ++ 0 :: q = c :: t /\ ~ digit c /\ (c =? 0) = match r with [] => true | _ => false end) as (c & t & E2 & NC & CZ).
  { destruct r as [| c r]; [exists 0, q | exists c, (r ++ 0 :: q)]; (split; [reflexivity |]); split; try assumption; [unfold digit; lia | reflexivity |]. destruct (Z.eqb_spec c 0); [subst; exfalso; apply NZ; left; reflexivity | reflexivity]. }
  assert (EA : a = sp ++ sg ++ (d :: ds) ++ c :: t) by (subst a; rewrite <- !app_assoc, E2; reflexivity).
  transitivity (Ok (if in_intb w (val pos 0 (d :: ds)) then if c =? 0 then strAllRight else strWrongFormat else strOutOfRange)); [| rewrite CZ; destruct r; reflexivity].
  assert (FU : (length (d :: ds) + length sg < S (length a) - length sp)%nat) by (rewrite EA, !app_length; cbn [length]; lia).
  destruct (S (length a) - length sp)%nat as [| fuel]; [lia |].
  assert (SG0 : pos = true /\ sg = [] \/ exists g, sg = [g] /\ (g =? 45) = negb pos /\ ((g =? 43) || (g =? 45)) = true /\ IsWhiteSpace g = false).
  { destruct pos; cbn in SG; [destruct SG as [-> | ->]; [left; auto | right; exists 43; auto] | right; exists 45; auto]. }
  destruct SG0 as [[-> ->] | (g & -> & G1 & G2 & G3)].
  - apply loop_first with (ds := ds) (q := t); auto; rewrite ?zlen_nil in L; cbn [length] in FU; try lia. cbn [length]; lia.
  - rewrite zlen_cons, zlen_nil in L. cbn [format_loop]. rewrite EA at 1. cbn [app]. rewrite getA_at. cbn [bind call]. unfold ScanInt. rewrite G3, G2.
    change (valid =? padding) with false. change (valid =? valid) with true. cbv iota. rewrite (INC_ok w wi) by (auto; lia). cbn [bind]. rewrite G1.
    assert (EQ : zlen sp + 1 = zlen (sp ++ [g])) by (rewrite zlen_app, zlen_cons, zlen_nil; lia). rewrite EQ.
    assert (Q : format_loop fuel w wi a (zlen (sp ++ [g])) SS 0 pos valid = Ok (if in_intb w (val pos 0 (d :: ds)) then if c =? 0 then strAllRight else strWrongFormat else strOutOfRange)).
    { apply loop_first with (ds := ds) (q := t); auto; [rewrite EA, <- app_assoc; reflexivity | rewrite <- EQ; lia | cbn [length] in FU |- *; lia]. }
    destruct pos; cbn [negb].
    + replace (g =? 43) with true by lia. exact Q.
    + exact Q.
Qed.

(** ** Values *)
Lemma val_app : forall pos a b v, val pos v (a ++ b) = val pos (val pos v a) b.
Proof. intros. unfold val. apply fold_left_app. Qed.
Lemma val_neg : forall ds v, val false (- v) ds = - val true v ds.
Proof. induction ds as [| c ds IH]; intros v; [reflexivity |]. cbn [val fold_left]. fold (val false (upd false (- v) c) ds). fold (val true (upd true v c) ds). rewrite <- IH. f_equal. unfold upd. lia. Qed.
Lemma digval_digit : forall c d, digval c = Some d -> 0 <= d < 10 -> digit c /\ d = c - 48.
Proof. intros c d H R. unfold digval in H. unfold digit. destruct ((48 <=? c) && (c <=? 57)) eqn:E; [inversion H; lia |]. destruct ((65 <=? c) && (c <=? 70)) eqn:E2; inversion H. lia. Qed.
Lemma numeral_val : forall ds v, numeral 10 ds v <-> Forall digit ds /\ v = val true 0 ds.
Proof.
  intros ds v. split.
  - induction 1 as [| ds v c d N [F E] DV R]; [split; [constructor | reflexivity] |]. destruct (digval_digit c d DV R) as [DC ->]. split; [apply Forall_app; auto |]. rewrite val_app, <- E. reflexivity.
  - intros [F ->]. induction ds as [| c ds IH] using rev_ind; [constructor |]. apply Forall_app in F as [F C]. inversion C as [| ? ? DC _]; subst. rewrite val_app. cbn [val fold_left upd]. fold (val true 0 ds). unfold digit in DC.
    apply numeral_snoc; [apply IH; exact F | | lia]. unfold digval. replace ((48 <=? c) && (c <=? 57)) with true by lia. reflexivity.
Qed.
(** The parts of a whole number are determined. *)
Lemma blank_not : forall c, blank c -> ~ digit c /\ c <> 43 /\ c <> 45 /\ c <> 0.
Proof. intros c B. unfold blank, digit in *. cbn [In] in B. lia. Qed.
Lemma whole_parts : forall s v, whole s v <-> exists sp pos sg ds, s = sp ++ sg ++ ds /\ Forall blank sp /\ sign_of pos sg /\ ds <> [] /\ Forall digit ds /\ v = val pos 0 ds.
Proof.
  intros s v. split.
  - intros [sp sg ds u B S N NU | sp ds u B N NU]; apply numeral_val in NU as [F ->].
    + exists sp, true, sg, ds. auto 8.
    + exists sp, false, [45], ds. rewrite <- val_neg. repeat split; auto.
  - intros (sp & pos & sg & ds & -> & B & S & N & F & ->). destruct pos; cbn in S.
    + apply whole_pos; auto. apply numeral_val. auto.
    + subst sg. change 0 with (- 0). rewrite val_neg. apply whole_neg; auto. apply numeral_val. auto.
Qed.

Lemma Length_arg : forall w wi a s, model w wi -> string_arg wi a s -> Length wi a = Ok (zlen s).
Proof.
  intros w wi a s M (E & T & L). destruct (terminated_split a T) as [q EA]. rewrite E in EA. pose proof (str_of_no0 a) as NZ. rewrite E in NZ. unfold Length. rewrite EA.
  apply (length_ok w wi M s [] q); [exact NZ | rewrite zlen_nil; lia | rewrite app_length; cbn [length]; lia].
Qed.
(** FormatInt on any string. *)
Lemma format_all : forall w wi a s, model w wi -> string_arg wi a s -> exists r, FormatInt w wi a = Ok r /\
  (forall v, whole s v -> r = if in_intb w v then strAllRight else strOutOfRange) /\
  (r = strAllRight -> exists v, whole s v /\ in_int w v) /\
  (Forall blank s -> r = strEmpty).
Proof.
  intros w wi a s M SA. unfold FormatInt. rewrite (Length_arg w wi a s M SA). cbn [bind]. destruct SA as (E & T & L). destruct (terminated_split a T) as [q EA]. rewrite E in EA. pose proof (str_of_no0 a) as NZ. rewrite E in NZ. clear E T.
  assert (U : forall v, whole s v -> exists sp pos sg ds, s = sp ++ sg ++ ds ++ [] /\ Forall blank sp /\ sign_of pos sg /\ ds <> [] /\ Forall digit ds /\ v = val pos 0 ds).
  { intros v W. apply whole_parts in W as (sp & pos & sg & ds & -> & W). exists sp, pos, sg, ds. rewrite app_nil_r. auto. }
  assert (ANS : forall v, whole s v -> format_loop (S (length a)) w wi a 0 SI 0 true padding = Ok (if in_intb w v then strAllRight else strOutOfRange)).
  { intros v W. destruct (U v W) as (sp & pos & sg & ds & ES & B & SG & N & F & ->). subst s. apply (format_num w wi a sp pos sg ds [] q M EA L); auto. }
  assert (BL : Forall blank s -> format_loop (S (length a)) w wi a 0 SI 0 true padding = Ok strEmpty).
  { intros B. apply (format_none w wi a s [] q M); rewrite ?app_nil_r; auto. }
  destruct (parts_all s) as [sp r B R | sp c r B C R | sp pos sg ds r B SG N F R].
  - exists strEmpty. rewrite (format_none w wi a sp r q M EA L B R) in *. split; [reflexivity |]. split; [intros v W; specialize (ANS v W); congruence |]. split; [discriminate | auto].
  - exists strWrongFormat. rewrite (format_sign w wi a sp c r q M EA L B C R) in *. split; [reflexivity |]. split; [intros v W; specialize (ANS v W); congruence |]. split; [discriminate |]. intros BB. specialize (BL BB). congruence.
  - assert (NR : ~ In 0 r) by (intro; apply NZ; rewrite !in_app_iff; auto).
    pose proof (format_num w wi a sp pos sg ds r q M EA L NR B SG N F R) as Q. eexists. split; [exact Q |]. rewrite Q in *. split; [intros v W; specialize (ANS v W); congruence |].
    split; [| intros BB; specialize (BL BB); congruence].
    destruct (in_intb w (val pos 0 ds)) eqn:I; [| discriminate]. destruct r; [| discriminate]. intros _. exists (val pos 0 ds). split; [| apply in_intb_iff; exact I]. apply whole_parts. rewrite app_nil_r. exists sp, pos, sg, ds. auto 8.
Qed.

(** ValueInt *)
Lemma value_digits : forall w wi pos, model w wi -> forall ds v p q, Forall digit ds -> dir pos v -> in_int w (val pos v ds) -> value_loop (length ds) w (p ++ ds ++ q) (zlen p) SW v pos = Ok (val pos v ds).
Proof.
  intros w wi pos M. induction ds as [| d ds IH]; intros v p q F D I; [reflexivity |]. cbn [length value_loop app]. rewrite getA_at. cbn [bind call]. unfold WState. inversion F as [| ? ? C F']; subst. rewrite (proj2 (numeric_digit d) C). cbn [bind].
  change (valid =? valid) with true. cbv iota. unfold digit in C. replace (d =? 45) with false by lia. replace (d =? 43) with false by lia.
  pose proof (val_far w wi pos (d :: ds) v M D F I) as I0. pose proof (val_far w wi pos ds (upd pos v d) M (upd_dir pos v d D C) F' I) as I1.
  assert (in_int w (v * 10)).
  { assert (min_int w <= -100000 /\ 100000 <= max_int w /\ (forall x, in_int w x <-> min_int w <= x <= max_int w)) as (A & B & Q) by (unfold max_int, min_int, in_int; destruct M as [[-> _] | [-> _]]; cbn; (split; [lia |]); split; intros; lia).
    apply Q. apply Q in I1. destruct pos; unfold dir, upd in *; lia. }
  rewrite chk_ok by assumption. cbn [bind]. fold (upd pos v d). rewrite (chk_ok w (upd pos v d) I1). cbn [bind].
  replace (zlen p + 1) with (zlen (p ++ [d])) by (rewrite zlen_app, zlen_cons, zlen_nil; lia). replace (p ++ d :: ds ++ q) with ((p ++ [d]) ++ ds ++ q) by (rewrite <- app_assoc; reflexivity). apply IH; auto using upd_dir.
Qed.
Lemma value_first : forall w wi pos d ds p q s, model w wi -> s = SI \/ s = SS -> Forall digit (d :: ds) -> in_int w (val pos 0 (d :: ds)) -> value_loop (length (d :: ds)) w (p ++ (d :: ds) ++ q) (zlen p) s 0 pos = Ok (val pos 0 (d :: ds)).
Proof.
  intros w wi pos d ds p q s M S0 F I. rewrite <- (value_digits w wi pos M (d :: ds) 0 p q F) by (auto; destruct pos; cbn; lia).
  cbn [length value_loop app]. rewrite getA_at. cbn [bind].
  assert (call s d = Ok (valid, SW)) as ->.
  { inversion F as [| ? ? C F']; subst. destruct S0; subst s; cbn [call]; unfold ScanInt, SState; rewrite (proj2 (numeric_digit d) C); [| reflexivity].
    unfold digit in C. destruct (IsWhiteSpace d) eqn:EW; [apply white_blank in EW; unfold blank in EW; cbn [In] in EW; lia |]. replace ((d =? 43) || (d =? 45)) with false by lia. reflexivity. }
  cbn [call]. unfold WState. inversion F as [| ? ? C F']; subst. rewrite (proj2 (numeric_digit d) C). reflexivity.
Qed.
Lemma value_blank : forall w, forall sp p q n, Forall blank sp -> value_loop (length sp + n) w (p ++ sp ++ q) (zlen p) SI 0 true = value_loop n w (p ++ sp ++ q) (zlen (p ++ sp)) SI 0 true.
Proof.
  intros w. induction sp as [| c sp IH]; intros p q n B; [rewrite app_nil_r; reflexivity |]. cbn [length Nat.add value_loop app]. rewrite getA_at. cbn [bind call]. unfold ScanInt. inversion B as [| ? ? C B']; subst. rewrite (proj2 (white_blank c) C). cbn [bind].
  change (padding =? valid) with false. cbv iota. cbn [bind]. specialize (IH (p ++ [c]) q n B'). rewrite <- app_assoc in IH. cbn [app] in IH. rewrite zlen_app, zlen_cons, zlen_nil in IH. replace (zlen p + 1) with (zlen p + (1 + 0)) by lia. rewrite IH. do 2 f_equal. rewrite <- app_assoc. reflexivity.
Qed.
Lemma value_all : forall w wi a s v, model w wi -> string_arg wi a s -> whole s v -> in_int w v -> ValueInt w wi a = Ok v.
Proof.
  intros w wi a s v M SA W I. unfold ValueInt. destruct (format_all w wi a s M SA) as (r & -> & FR & _ & _). cbn [bind]. rewrite (FR v W), (proj2 (in_intb_iff w v) I). change (strAllRight =? strAllRight) with true. cbv iota.
  rewrite (Length_arg w wi a s M SA). cbn [bind]. destruct SA as (E & T & L). destruct (terminated_split a T) as [q EA]. rewrite E in EA.
  unfold zlen at 1. rewrite Nat2Z.id, EA. clear E EA. apply whole_parts in W as (sp & pos & sg & ds & -> & B & SG & N & F & ->).
  rewrite app_length, <- app_assoc. change (sp ++ (sg ++ ds) ++ 0 :: q) with ([] ++ sp ++ (sg ++ ds) ++ 0 :: q). change 0 with (zlen (@nil Z)) at 2. rewrite value_blank by exact B. cbn [app].
  destruct ds as [| d ds]; [contradiction |].
  assert (SG0 : pos = true /\ sg = [] \/ exists g, sg = [g] /\ (g =? 45) = negb pos /\ ((g =? 43) || (g =? 45)) = true /\ IsWhiteSpace g = false).
  { destruct pos; cbn in SG; [destruct SG as [-> | ->]; [left; auto | right; exists 43; auto] | right; exists 45; auto]. }
  destruct SG0 as [[-> ->] | (g & -> & G1 & G2 & G3)].
  - apply (value_first w wi); auto.
  - cbn [app length]. cbn [value_loop]. rewrite getA_at. cbn [bind call]. unfold ScanInt. rewrite G3, G2. cbn [bind]. change (valid =? valid) with true. cbv iota. rewrite G1.
    replace (zlen sp + 1) with (zlen (sp ++ [g])) by (rewrite zlen_app, zlen_cons, zlen_nil; lia). replace (sp ++ g :: d :: ds ++ 0 :: q) with ((sp ++ [g]) ++ (d :: ds) ++ 0 :: q) by (rewrite <- app_assoc; reflexivity).
    destruct pos; cbn [negb].
    + replace (g =? 43) with true by lia. cbn [bind]. apply (value_first w wi true d ds (sp ++ [g]) (0 :: q) SS); auto.
    + cbn [bind]. apply (value_first w wi false d ds (sp ++ [g]) (0 :: q) SS); auto.
Qed.

(** ** StrToInt

    The result is strAllRight exactly for the text of a number that LONGINT can hold, and then the number is stored. *)
Theorem C64_str_to_int : forall w wi a s int, model w wi -> string_arg wi a s ->
  exists int' r, StrToInt w wi a int = Ok (int', r) /\
  (r = strAllRight <-> exists v, whole s v /\ in_int w v) /\
  (r = strAllRight -> whole s int') /\
  (r <> strAllRight -> int' = int) /\
  (forall v, whole s v -> ~ in_int w v -> r = strOutOfRange) /\
  (Forall blank s -> r = strEmpty).
Proof.
  intros w wi a s int M SA. unfold StrToInt. destruct (format_all w wi a s M SA) as (r & -> & FR & R0 & RB). cbn [bind].
  assert (RV : forall v, whole s v -> ~ in_int w v -> r = strOutOfRange). { intros v W NI. rewrite (FR v W). destruct (in_intb w v) eqn:I; [apply in_intb_iff in I; contradiction | reflexivity]. }
  destruct (Z.eqb_spec r strAllRight) as [-> | NE].
  - destruct (R0 eq_refl) as (v & W & I). rewrite (value_all w wi a s v M SA W I). cbn [bind]. exists v, strAllRight. split; [reflexivity |]. split; [split; [intros _; exists v; auto | reflexivity] |]. split; [auto |]. split; [intros []; reflexivity |]. auto.
  - exists int, r. split; [reflexivity |]. split; [split; [intros ->; contradiction | intros (v & W & I); rewrite (FR v W), (proj2 (in_intb_iff w v) I); reflexivity] |]. split; [intros ->; contradiction |]. auto.
Qed.
(** A text denotes one number. *)
Theorem C64_one_value : forall s v v', whole s v -> whole s v' -> v = v'.
Proof.
  intros s v v' W W'. apply whole_parts in W as (sp & pos & sg & ds & -> & B & SG & N & F & ->). apply whole_parts in W' as (sp' & pos' & sg' & ds' & E & B' & SG' & N' & F' & ->).
  assert (sp = sp' /\ sg ++ ds = sg' ++ ds') as [<- E'].
  { assert (H0 : forall pos sg ds, sign_of pos sg -> ds <> [] -> Forall digit ds -> exists c t, sg ++ ds = c :: t /\ ~ blank c).
    { clear. intros pos sg ds S N F. destruct ds as [| d ds]; [contradiction |]. inversion F as [| ? ? D _]; subst. destruct pos; cbn in S; [destruct S as [-> | ->] | subst sg]; cbn [app]; do 2 eexists; (split; [reflexivity |]); intro K; destruct (blank_not _ K); auto; lia. }
    destruct (H0 _ _ _ SG N F) as (c & t & E1 & NB). destruct (H0 _ _ _ SG' N' F') as (c' & t' & E1' & NB'). rewrite E1, E1' in *. clear - E B B' NB NB'.
    revert sp' E B'. induction sp as [| x sp IH]; intros [| y sp'] E B'; cbn [app] in E.
    - auto.
    - inversion E; subst. inversion B'; contradiction.
    - inversion E; subst. inversion B; contradiction.
    - inversion E; subst. inversion B; subst. inversion B'; subst. destruct (IH H3 sp') as [-> Q]; auto. }
  assert (DG : forall c, digit c -> c <> 43 /\ c <> 45) by (unfold digit; lia).
  destruct ds as [| d ds]; [contradiction |]. destruct ds' as [| d' ds']; [contradiction |]. inversion F as [| ? ? D _]; subst. inversion F' as [| ? ? D' _]; subst. apply DG in D. apply DG in D'.
  destruct pos, pos'; cbn in SG, SG'; [destruct SG as [-> | ->], SG' as [-> | ->] | destruct SG as [-> | ->]; subst sg' | destruct SG' as [-> | ->]; subst sg | subst sg sg']; cbn [app] in E'; inversion E'; subst; try reflexivity; try lia.
Qed.
(** The other answers do not mean what their descriptions say: strEmpty is also the answer for strings that are not empty, and strOutOfRange for strings that are not numbers. *)
Theorem C64_empty_refuted : forall w wi, model w wi ->
  ~ (forall a s int int' r, string_arg wi a s -> StrToInt w wi a int = Ok (int', r) -> r = strEmpty -> Forall blank s).
Proof.
  intros w wi M H. specialize (H [120; 0] [120] 5 5 strEmpty). assert (B : Forall blank [120]); [| inversion B as [| ? ? K _]; unfold blank in K; cbn [In] in K; lia].
  apply H; [| destruct M as [[-> ->] | [-> ->]]; vm_compute; reflexivity | reflexivity]. split; [reflexivity |]. split; [right; left; reflexivity |]. destruct M as [[-> ->] | [-> ->]]; vm_compute; reflexivity.
Qed.
Theorem C64_range_refuted : forall w wi, model w wi ->
  ~ (forall a s int int' r, string_arg wi a s -> StrToInt w wi a int = Ok (int', r) -> r = strOutOfRange -> exists v, whole s v).
Proof.
  intros w wi M H. set (s := repeat 57 20 ++ [120]). destruct (H (s ++ [0]) s 5 5 strOutOfRange) as [v W].
  - split; [reflexivity |]. split; [unfold terminated, s; cbn; auto 25 |]. destruct M as [[-> ->] | [-> ->]]; vm_compute; reflexivity.
  - destruct M as [[-> ->] | [-> ->]]; vm_compute; reflexivity.
  - reflexivity.
  - apply whole_parts in W as (sp & pos & sg & ds & E & B & SG & N & F & _). destruct (exists_last N) as (l & x & ->). unfold s in E. rewrite !app_assoc in E. apply app_inj_tail in E as [_ <-]. apply Forall_app in F as [_ F]. inversion F as [| ? ? D _]. unfold digit in D. lia.
Qed.

(** ** IntToStr *)
Fixpoint rdig (n : nat) (x : Z) : list Z := match n with O => [] | S n => (x mod 10 + 48) :: if x / 10 =? 0 then [] else rdig n (x / 10) end.
Lemma rdig_ok : forall n x, 0 <= x < 10 ^ Z.of_nat n -> (0 < n)%nat -> numeral 10 (rev (rdig n x)) x /\ no_leading_zero (rev (rdig n x)).
Proof.
  induction n as [| n IH]; intros x R P; [lia |]. cbn [rdig rev]. destruct (Z.eqb_spec (x / 10) 0) as [E | E].
  - cbn [rev app]. split; [| exact I]. replace x with (0 * 10 + x mod 10) at 2 by lia. change [x mod 10 + 48] with ([] ++ [x mod 10 + 48]). apply numeral_snoc; [constructor | rewrite Z.add_comm; apply digval_dec; lia | lia].
  - rewrite Nat2Z.inj_succ, Z.pow_succ_r in R by lia. assert (0 < n)%nat by (destruct n; [cbn in R; lia | lia]). destruct (IH (x / 10)) as [A B]; [lia | assumption |]. split.
    + replace x with (x / 10 * 10 + x mod 10) at 3 by lia. apply numeral_snoc; [exact A | rewrite Z.add_comm; apply digval_dec; lia | lia].
    + destruct (rev (rdig n (x / 10))) as [| c t] eqn:ER; [destruct B |]. cbn [app]. destruct t; cbn [app]; [| exact B]. cbn [no_leading_zero]. intros ->.
      apply numeral_val in A as [_ A]. cbn in A. lia.
Qed.
Lemma skipn_next : forall n (l : list Z) z q, skipn n l = z :: q -> skipn (S n) l = q.
Proof. induction n as [| n IH]; intros [| c l] z q E; cbn [skipn] in *; try discriminate; [inversion E; reflexivity |]. apply (IH l z q). exact E. Qed.
Lemma rdig_len : forall n x, (0 < n)%nat -> 1 <= zlen (rdig n x).
Proof. intros [| n] x P; [lia |]. cbn [rdig]. rewrite zlen_cons. match goal with |- context [zlen ?l] => pose proof (zlen_nonneg _ l) end. lia. Qed.
Lemma digit_loop_ok : forall w wi, model w wi -> forall n x p q, 0 <= x < 10 ^ Z.of_nat n -> (0 < n)%nat -> zlen (p ++ q) < 30000 ->
  if zlen (rdig n x) <=? zlen q then exists q', q' = skipn (length (rdig n x)) q /\ digit_loop n wi (p ++ q) x (zlen p) = Ok (p ++ rdig n x ++ q', zlen p + zlen (rdig n x))
  else digit_loop n wi (p ++ q) x (zlen p) = Trap (-2).
Proof.
  intros w wi M. assert (MX : 32767 <= max_int wi) by (destruct M as [[_ ->] | [_ ->]]; cbn; lia).
  induction n as [| n IH]; intros x p q R P L; [lia |]. rewrite zlen_app in L. pose proof (zlen_nonneg _ p). pose proof (zlen_nonneg _ q). cbn [rdig digit_loop].
  destruct q as [| y q].
  - rewrite zlen_cons, zlen_nil, app_nil_r. pose proof (zlen_nonneg _ (if x / 10 =? 0 then [] else rdig n (x / 10))). match goal with |- context [?a <=? 0] => replace (a <=? 0) with false by lia end.
    rewrite setA_trap by lia. reflexivity.
  - rewrite setA_at. cbn [bind]. rewrite zlen_cons in *. pose proof (zlen_nonneg _ q). rewrite (INC_ok w wi) by (auto; lia). cbn [bind]. destruct (Z.eqb_spec (x / 10) 0) as [E | E].
    + rewrite !zlen_cons, zlen_nil. replace (1 + 0 <=? 1 + zlen q) with true by lia. exists q. split; [reflexivity |]. reflexivity.
    + rewrite Nat2Z.inj_succ, Z.pow_succ_r in R by lia. assert (0 < n)%nat by (destruct n; [cbn in R; lia | lia]). specialize (IH (x / 10) (p ++ [x mod 10 + 48]) q ltac:(lia) ltac:(assumption)).
      rewrite zlen_app, zlen_app, zlen_cons, zlen_nil in IH. specialize (IH ltac:(lia)). rewrite <- app_assoc in IH. cbn [app] in IH. rewrite !zlen_cons. replace (1 + zlen (rdig n (x / 10)) <=? 1 + zlen q) with (zlen (rdig n (x / 10)) <=? zlen q) by lia.
      replace (zlen p + 1) with (zlen p + (1 + 0)) by lia. destruct (zlen (rdig n (x / 10)) <=? zlen q).
      * destruct IH as (q' & EQ & ->). exists q'. split; [exact EQ |]. rewrite <- app_assoc. cbn [app]. do 2 f_equal. lia.
      * exact IH.
Qed.
Lemma Reverse_ok : forall w wi, model w wi -> forall fuel m p q, zlen (p ++ m) < 30000 -> (length m < fuel)%nat -> Reverse fuel wi (p ++ m ++ q) (zlen p) (zlen p + zlen m - 1) = Ok (p ++ rev m ++ q).
Proof.
  intros w wi M. assert (MX : 32767 <= max_int wi) by (destruct M as [[_ ->] | [_ ->]]; cbn; lia).
  induction fuel as [| fuel IH]; intros m p q L FU; [lia |]. rewrite zlen_app in L. pose proof (zlen_nonneg _ p). cbn [Reverse].
  destruct m as [| x m]; [rewrite zlen_nil; replace (zlen p <? zlen p + 0 - 1) with false by lia; reflexivity |].
  destruct m as [| y m] using rev_ind; [rewrite zlen_cons, zlen_nil; replace (zlen p <? zlen p + (1 + 0) - 1) with false by lia; reflexivity |]. clear IHm.
  rewrite zlen_cons, zlen_app, zlen_cons, zlen_nil in *. pose proof (zlen_nonneg _ m). replace (zlen p <? zlen p + (1 + (zlen m + (1 + 0))) - 1) with true by lia.
  replace (zlen p + (1 + (zlen m + (1 + 0))) - 1) with (zlen (p ++ x :: m)) by (rewrite zlen_app, zlen_cons; lia).
  replace (p ++ (x :: m ++ [y]) ++ q) with (p ++ x :: (m ++ y :: q)) by (cbn [app]; rewrite <- app_assoc; reflexivity). rewrite getA_at. cbn [bind].
  replace (p ++ x :: m ++ y :: q) with ((p ++ x :: m) ++ y :: q) at 1 by (rewrite <- app_assoc; reflexivity). rewrite getA_at. cbn [bind]. rewrite setA_at. cbn [bind].
  replace (zlen (p ++ x :: m)) with (zlen (p ++ y :: m)) by (rewrite !zlen_app, !zlen_cons; lia). replace (p ++ y :: m ++ y :: q) with ((p ++ y :: m) ++ y :: q) by (rewrite <- app_assoc; reflexivity). rewrite setA_at. cbn [bind].
  rewrite (INC_ok w wi) by (auto; lia). cbn [bind]. specialize (IH m (p ++ [y]) (x :: q)). rewrite !zlen_app, !zlen_cons, zlen_nil in IH. rewrite zlen_app, zlen_cons.
  replace (zlen p + (1 + 0) + zlen m - 1) with (zlen p + (1 + zlen m) - 1) in IH by lia. replace (zlen p + 1) with (zlen p + (1 + 0)) by lia. rewrite <- !app_assoc in *. cbn [app] in *. rewrite IH; [| lia | cbn [length] in FU; rewrite app_length in FU; cbn [length] in FU; lia].
  cbn [rev]. rewrite rev_app_distr. cbn [rev app]. rewrite <- !app_assoc. reflexivity.
Qed.

(** The text of a number is determined, so is its length. *)
Lemma int_text_rdig : forall x t, is_int_text x t -> Z.abs x < 10 ^ 65 -> t = (if x <? 0 then [45] else []) ++ rev (rdig 65 (Z.abs x)).
Proof.
  intros x t (ds & -> & N & NL) R. f_equal. destruct (rdig_ok 65 (Z.abs x)) as [N' NL']; [lia | lia |]. set (ds' := rev (rdig 65 (Z.abs x))) in *. clearbody ds'. revert N NL N' NL'. generalize (Z.abs x). clear.
  intros v N NL N' NL'.
  assert (U : forall a b v, numeral 10 a v -> numeral 10 b v -> length a = length b -> a = b).
  { clear. intros a. induction a as [| c a IH] using rev_ind; intros b v N N' L; [destruct b; [reflexivity | discriminate] |]. destruct b as [| c' b] using rev_ind; [rewrite app_length in L; cbn in L; lia |]. clear IHb.
    apply numeral_val in N as [F E]. apply numeral_val in N' as [F' E']. apply Forall_app in F as [F C]. apply Forall_app in F' as [F' C']. inversion C as [| ? ? D _]; subst. inversion C' as [| ? ? D' _]; subst. rewrite !val_app in E'. cbn [val fold_left upd] in E'. fold (val true 0 a) in E'. fold (val true 0 b) in E'.
    unfold digit in *. rewrite !app_length in L. cbn [length] in L. assert (a = b) as -> by (apply (IH b (val true 0 a)); [apply numeral_val; auto | apply numeral_val; split; [auto | lia] | lia]). f_equal. f_equal. lia. }
  apply (U _ _ v); auto.
  assert (B : forall l u, numeral 10 l u -> u < 10 ^ zlen l).
  { clear. intros l u N. induction N as [| ds v c d N IH DV R]; [rewrite zlen_nil; cbn; lia |]. rewrite zlen_app, zlen_cons, zlen_nil, Z.pow_add_r by (pose proof (zlen_nonneg _ ds); lia). change (10 ^ (1 + 0)) with 10. lia. }
  destruct (Z.eq_dec v 0) as [-> | NZ].
  - assert (Q : forall l, numeral 10 l 0 -> no_leading_zero l -> length l = 1%nat).
    { clear. intros [| c [| c' l]] N NL; [destruct NL | reflexivity |]. cbn in NL. exfalso. destruct (numeral_pos 10 _ _ ltac:(lia) N) as [_ Q]. specialize (Q c (c' :: l) eq_refl NL). lia. }
    rewrite (Q _ N NL), (Q _ N' NL'). reflexivity.
  - assert (V : 0 <= v) by (apply (numeral_pos 10 ds v); [lia | assumption]). pose proof (numeral_lower 10 ds v ltac:(lia) N NL ltac:(lia)) as A. pose proof (numeral_lower 10 ds' v ltac:(lia) N' NL' ltac:(lia)) as A'. pose proof (B _ _ N) as C. pose proof (B _ _ N') as C'.
    assert (Q : forall m n, 10 ^ (m - 1) < 10 ^ n -> 0 <= n -> m <= n) by (clear; intros m n H N; destruct (Z_le_gt_dec m n) as [| G]; [assumption |]; pose proof (Z.pow_le_mono_r 10 n (m - 1) ltac:(lia) ltac:(lia)); lia).
    pose proof (zlen_nonneg _ ds). pose proof (zlen_nonneg _ ds'). assert (zlen ds = zlen ds') by (apply Z.le_antisymm; apply Q; lia). unfold zlen in *. lia.
Qed.
Lemma int_text_exists : forall x, Z.abs x < 10 ^ 65 -> is_int_text x ((if x <? 0 then [45] else []) ++ rev (rdig 65 (Z.abs x))).
Proof. intros x R. eexists. split; [reflexivity |]. apply rdig_ok; lia. Qed.
Lemma int_text_no0 : forall x t, is_int_text x t -> ~ In 0 t.
Proof.
  intros x t (ds & -> & N & _) H. apply numeral_val in N as [F _]. rewrite Forall_forall in F. apply in_app_iff in H as [H | H]; [destruct (x <? 0); cbn in H; lia |]. apply F in H. unfold digit in H. lia.
Qed.

Lemma copy_text : forall t q str, ~ In 0 t -> (1 <= length str)%nat -> exists str', COPY (t ++ 0 :: q) str = Ok str' /\ zlen str' = zlen str /\ terminated str' /\ str_of str' = firstn (length str - 1) t.
Proof.
  intros t q str N L. assert (ST : str_of (t ++ 0 :: q) = t) by (apply str_of_app0; exact N).
  pose proof (COPY_spec (t ++ 0 :: q) str) as C. cbv zeta in C. rewrite ST in C. rewrite C; [| left; apply in_app_iff; right; left; reflexivity | exact L]. eexists. split; [reflexivity |]. set (k := Nat.min (length t) (length str - 1)) in *.
  assert (K1 : (k <= length t)%nat) by apply Nat.le_min_l. assert (K2 : (k <= length str - 1)%nat) by apply Nat.le_min_r.
  split; [unfold zlen; rewrite app_length, firstn_length; cbn [length]; rewrite skipn_length; lia |]. split; [apply in_app_iff; right; left; reflexivity |].
  rewrite str_of_app0 by (intro H; apply N; rewrite <- (firstn_skipn k t); apply in_app_iff; left; exact H). unfold k. clear. revert t. induction (length str - 1)%nat as [| n IH]; intros [| c t]; cbn [firstn length Nat.min]; try reflexivity. rewrite IH. reflexivity.
Qed.
Lemma model_abs : forall w wi x, model w wi -> in_int w x -> Z.abs x < 10 ^ 65 /\ - 10 ^ 20 < x < 10 ^ 20.
Proof. intros w wi x [[-> _] | [-> _]] I; [apply in_int32 in I | apply in_int64 in I]; split; lia. Qed.

(** The text in the local array: -x exists, so every intermediate is defined. *)
Lemma build_ok : forall w wi b x t, model w wi -> zlen b = 12 -> in_int w x -> x <> min_int w -> is_int_text x t ->
  (let* (b, int, s) := if x <? 0 then let* b := setA b 0 45 in let* n := chk w (- x) in Ok (b, n, 1) else Ok (b, x, 0) in
   let* (b, e) := digit_loop 65 wi b int s in
   let* b := setA b e 0 in
   Reverse 65 wi b s (e - 1)) = if zlen t <=? 11 then Ok (t ++ 0 :: skipn (S (length t)) b) else Trap (-2).
Proof.
  intros w wi b x t M L I NM T. destruct (model_abs w wi x M I) as [R _]. rewrite (int_text_rdig x t T R).
  set (D := rdig 65 (Z.abs x)) in *.
  assert (ND : 1 <= zlen D) by (apply rdig_len; lia).
  assert (K : forall p y q, zlen (p ++ y :: q) = 12 -> forall p', zlen p' = zlen p ->
    (let* (b, e) := digit_loop 65 wi (p' ++ y :: q) (Z.abs x) (zlen p') in let* b := setA b e 0 in Reverse 65 wi b (zlen p') (e - 1)) =
    if zlen (p' ++ rev D) <=? 11 then Ok ((p' ++ rev D) ++ 0 :: skipn (S (length (p' ++ rev D))) (p' ++ y :: q)) else Trap (-2)).
  { intros p y q LB p' LP. rewrite zlen_app in LB. pose proof (digit_loop_ok w wi M 65 (Z.abs x) p' (y :: q)) as Q. fold D in Q. specialize (Q ltac:(lia) ltac:(lia) ltac:(rewrite zlen_app; lia)).
    assert (LR : zlen (rev D) = zlen D) by (unfold zlen; rewrite rev_length; reflexivity). rewrite zlen_app, LR.
    destruct (Z.leb_spec (zlen D) (zlen (y :: q))) as [LE | GT].
    - destruct Q as (q' & EQ & ->). cbn [bind]. assert (LQ : zlen q' = zlen (y :: q) - zlen D) by (subst q'; unfold zlen in *; rewrite skipn_length; lia).
      destruct (Z.leb_spec (zlen p' + zlen D) 11) as [LE' | GT'].
      + destruct q' as [| z q']; [rewrite zlen_nil in LQ; lia |]. rewrite app_assoc. replace (zlen p' + zlen D) with (zlen (p' ++ D)) by (rewrite zlen_app; lia). rewrite setA_at. cbn [bind]. rewrite <- app_assoc.
        replace (zlen (p' ++ D) - 1) with (zlen p' + zlen D - 1) by (rewrite zlen_app; lia). rewrite (Reverse_ok w wi M); [| rewrite zlen_app; lia | unfold zlen in *; lia].
        f_equal. rewrite <- app_assoc. do 2 f_equal. f_equal. rewrite app_length, rev_length. rewrite skipn_app. rewrite skipn_all2 by lia. cbn [app]. replace (S (length p' + length D) - length p')%nat with (S (length D)) by lia. symmetry. apply (skipn_next _ _ z). symmetry. exact EQ.
      + rewrite setA_trap by (rewrite !zlen_app; lia). reflexivity.
    - rewrite Q. cbn [bind]. replace (zlen p' + zlen D <=? 11) with false by lia. reflexivity. }
  destruct (Z.ltb_spec x 0) as [XN | XP].
  - destruct b as [| y0 [| y1 b]]; [rewrite zlen_nil in L; lia | rewrite zlen_cons, zlen_nil in L; lia |]. change 0 with (zlen (@nil Z)) at 1. change (y0 :: y1 :: b) with ([] ++ y0 :: y1 :: b) at 1. rewrite setA_at. cbn [bind app].
    assert (in_int w (- x)) as I' by (unfold in_int, min_int in *; lia). rewrite chk_ok by exact I'. cbn [bind]. replace (- x) with (Z.abs x) by lia.
    exact (K [45] y1 b L [45] eq_refl).
  - cbn [bind app]. destruct b as [| y0 b]; [rewrite zlen_nil in L; lia |]. replace (digit_loop 65 wi (y0 :: b) x 0) with (digit_loop 65 wi (y0 :: b) (Z.abs x) 0) by (f_equal; lia). exact (K [] y0 b L [] eq_refl).
Qed.

(** IntToStr stores the decimal text of the number, cut off if it is too long for str, as long as the text has at most 11 characters. *)
Theorem C64_int_to_str : forall w wi b x t str, model w wi -> zlen b = 12 -> in_int w x -> is_int_text x t -> 1 <= zlen str -> zlen t <= 11 -> (w = 64 -> x <> min_int w) ->
  exists str', IntToStr w wi b x str = Ok str' /\ zlen str' = zlen str /\ terminated str' /\ str_of str' = firstn (length str - 1) t.
Proof.
  intros w wi b x t str M L I T LS LT NM. unfold IntToStr. pose proof (int_text_no0 x t T) as N0. unfold zlen in LS. destruct (Z.eqb_spec x (min_int w)) as [-> | NE].
  - cbn [bind]. destruct M as [[-> ->] | [-> _]]; [| exfalso; apply NM; reflexivity]. assert (t = [45; 50; 49; 52; 55; 52; 56; 51; 54; 52; 56]) as ->.
    { rewrite (int_text_rdig _ t T) by (vm_compute; reflexivity). vm_compute. reflexivity. }
    change min_text with ([45; 50; 49; 52; 55; 52; 56; 51; 54; 52; 56] ++ 0 :: []). apply copy_text; [exact N0 | lia].
  - rewrite (build_ok w wi b x t M L I NE T). replace (zlen t <=? 11) with true by lia. cbn [bind]. apply copy_text; [exact N0 | lia].
Qed.
Lemma text_bound : forall x t n, is_int_text x t -> Z.abs x < 10 ^ n -> 1 <= n -> zlen t <= n + (if x <? 0 then 1 else 0).
Proof.
  intros x t n (ds & -> & N & NL) R P. rewrite zlen_app. assert (zlen ds <= n).
  { destruct (Z.eq_dec (Z.abs x) 0) as [E | E].
    - rewrite E in N. destruct ds as [| c [| c' l]]; [destruct NL | rewrite zlen_cons, zlen_nil; lia |]. cbn in NL. exfalso. destruct (numeral_pos 10 _ _ ltac:(lia) N) as [_ Q]. specialize (Q c (c' :: l) eq_refl NL). lia.
    - pose proof (numeral_lower 10 ds (Z.abs x) ltac:(lia) N NL ltac:(lia)). destruct (Z_le_gt_dec (zlen ds) n) as [| G]; [assumption |]. pose proof (Z.pow_le_mono_r 10 n (zlen ds - 1) ltac:(lia) ltac:(lia)). lia. }
  destruct (x <? 0); rewrite ?zlen_cons, ?zlen_nil; lia.
Qed.
(** With 32-bit LONGINT that is always so. *)
Theorem C64_int_to_str_32 : forall b x t str, zlen b = 12 -> in_int 32 x -> is_int_text x t -> 1 <= zlen str ->
  exists str', IntToStr 32 16 b x str = Ok str' /\ zlen str' = zlen str /\ terminated str' /\ str_of str' = firstn (length str - 1) t.
Proof.
  intros b x t str L I T LS. apply C64_int_to_str; auto; [left; auto | | discriminate]. apply in_int32 in I. pose proof (text_bound x t 10 T ltac:(lia) ltac:(lia)). destruct (x <? 0); lia.
Qed.
(** StrToInt takes back what IntToStr stored. *)
Lemma int_text_whole : forall x t, is_int_text x t -> whole t x.
Proof.
  intros x t (ds & -> & N & NL). assert (ds <> []) by (intros ->; destruct NL). destruct (Z.ltb_spec x 0).
  - change ([45] ++ ds) with ([] ++ 45 :: ds). replace x with (- Z.abs x) by lia. apply whole_neg; auto.
  - rewrite Z.abs_eq in N by lia. apply (whole_pos [] []); auto.
Qed.
Theorem C64_round_trip : forall b x str int, zlen b = 12 -> in_int 32 x -> 12 <= zlen str ->
  exists str', IntToStr 32 16 b x str = Ok str' /\ StrToInt 32 16 str' int = Ok (x, strAllRight).
Proof.
  intros b x str int L I LS. pose proof (int_text_exists x ltac:(apply (model_abs 32 16); [left |]; auto)) as T. set (t := (if x <? 0 then [45] else []) ++ rev (rdig 65 (Z.abs x))) in *. clearbody t.
  destruct (C64_int_to_str_32 b x t str L I T ltac:(lia)) as (str' & E & _ & TR & SO). exists str'. split; [exact E |].
  assert (LT : zlen t <= 11) by (apply in_int32 in I; pose proof (text_bound x t 10 T ltac:(lia) ltac:(lia)); destruct (x <? 0); lia).
  rewrite firstn_all2 in SO by (unfold zlen in *; lia).
  assert (M : model 32 16) by (left; auto). assert (SA : string_arg 16 str' t) by (split; [exact SO |]; split; [exact TR |]; change (max_int 16) with 32767; lia).
  destruct (C64_str_to_int 32 16 str' t int M SA) as (v & r & -> & R0 & RV & _). assert (r = strAllRight) as -> by (apply R0; exists x; split; [apply int_text_whole; exact T | exact I]).
  rewrite (C64_one_value t v x (RV eq_refl) (int_text_whole x t T)). reflexivity.
Qed.
(** With 64-bit LONGINT the local array is too short: numbers of more than 11 characters stop the program, and the smallest number is stored as another one. *)
Theorem C64_long_traps : forall b x t str, zlen b = 12 -> in_int 64 x -> x <> min_int 64 -> is_int_text x t -> 12 <= zlen t -> IntToStr 64 32 b x str = Trap (-2).
Proof.
  intros b x t str L I NE T LT. unfold IntToStr. destruct (Z.eqb_spec x (min_int 64)) as [-> |]; [contradiction |]. rewrite (build_ok 64 32 b x t) by (auto; right; auto). replace (zlen t <=? 11) with false by lia. reflexivity.
Qed.
Theorem C64_long_refuted : ~ (forall b x t str, zlen b = 12 -> in_int 64 x -> is_int_text x t -> 30 <= zlen str -> exists str', IntToStr 64 32 b x str = Ok str' /\ str_of str' = t) /\
  (forall b str, 12 <= zlen str -> exists str', IntToStr 64 32 b (min_int 64) str = Ok str' /\ str_of str' = [45; 50; 49; 52; 55; 52; 56; 51; 54; 52; 56]).
Proof.
  split.
  - intros H. pose proof (int_text_exists 1000000000000 ltac:(lia)) as T. set (t := _ ++ _) in T. assert (LT : 12 <= zlen t) by (vm_compute; discriminate). clearbody t.
    destruct (H (repeat 0 12) 1000000000000 t (repeat 0 40)) as (str' & E & _); [reflexivity | apply in_int64; lia | exact T | vm_compute; discriminate |].
    rewrite (C64_long_traps (repeat 0 12) 1000000000000 t (repeat 0 40)) in E; [discriminate | reflexivity | apply in_int64; lia | discriminate | exact T | exact LT].
  - intros b str L. unfold IntToStr. rewrite Z.eqb_refl. cbn [bind]. change min_text with ([45; 50; 49; 52; 55; 52; 56; 51; 54; 52; 56] ++ 0 :: []).
    destruct (copy_text [45; 50; 49; 52; 55; 52; 56; 51; 54; 52; 56] [] str) as (str' & E & _ & _ & S); [cbn; lia | unfold zlen in L; lia |]. exists str'. split; [exact E |]. rewrite S. apply firstn_all2. cbn. unfold zlen in L. lia.
Qed.
(** LengthInt is the length of that text. *)
Lemma count_ok : forall w wi, model w wi -> forall n x c, 0 <= x < 10 ^ Z.of_nat n -> 0 <= c -> c + Z.of_nat n < 30000 -> count_loop (S n) wi x c = Ok (c + if x =? 0 then 0 else zlen (rdig n x)).
Proof.
  intros w wi M. assert (MX : 32767 <= max_int wi) by (destruct M as [[_ ->] | [_ ->]]; cbn; lia).
  induction n as [| n IH]; intros x c R C B.
  - cbn [count_loop]. change (10 ^ Z.of_nat 0) with 1 in R. replace (x >? 0) with false by lia. replace (x =? 0) with true by lia. f_equal. lia.
  - change (count_loop (S (S n)) wi x c) with (if x >? 0 then let* cnt := INC wi c in count_loop (S n) wi (x / 10) cnt else Ok c).
    destruct (Z.gtb_spec x 0); [| replace (x =? 0) with true by lia; f_equal; lia]. rewrite (INC_ok w wi) by (auto; lia). cbn [bind]. rewrite Nat2Z.inj_succ, Z.pow_succ_r in R by lia. rewrite IH by lia. replace (x =? 0) with false by lia. cbn [rdig]. rewrite zlen_cons.
    destruct (x / 10 =? 0); rewrite ?zlen_nil; f_equal; lia.
Qed.
Theorem C64_length_int : forall w wi x t, model w wi -> in_int w x -> is_int_text x t -> LengthInt w wi x = Ok (zlen t).
Proof.
  intros w wi x t M I T. destruct (model_abs w wi x M I) as [R _]. rewrite (int_text_rdig x t T R). unfold LengthInt. destruct (Z.eqb_spec x (min_int w)) as [-> | NE].
  - destruct M as [[-> ->] | [-> ->]]; vm_compute; reflexivity.
  - assert (LR : forall l : list Z, zlen (rev l) = zlen l) by (intros; unfold zlen; rewrite rev_length; reflexivity). rewrite zlen_app, LR. destruct (Z.leb_spec x 0).
    + assert (in_int w (- x)) as I' by (unfold in_int, min_int in *; lia). rewrite chk_ok by exact I'. cbn [bind]. change 66%nat with (S 65). rewrite (count_ok w wi M) by lia. replace (Z.abs x) with (- x) by lia. destruct (Z.eqb_spec (- x) 0).
      * assert (x = 0) as -> by lia. reflexivity.
      * replace (x <? 0) with true by lia. reflexivity.
    + cbn [bind]. change 66%nat with (S 65). rewrite (count_ok w wi M) by lia. replace (Z.abs x) with x by lia. replace (x =? 0) with false by lia. replace (x <? 0) with false by lia. reflexivity.
Qed.

(** A case: "  -120" is read, "2147483648" is out of range for -O2 and not for -OC. *)
Example C64_case : string_arg 16 [32; 32; 45; 49; 50; 48; 0; 7] [32; 32; 45; 49; 50; 48] /\ whole [32; 32; 45; 49; 50; 48] (-120) /\ StrToInt 32 16 [32; 32; 45; 49; 50; 48; 0; 7] 0 = Ok (-120, strAllRight) /\
  StrToInt 32 16 [50; 49; 52; 55; 52; 56; 51; 54; 52; 56; 0] 0 = Ok (0, strOutOfRange) /\ StrToInt 64 32 [50; 49; 52; 55; 52; 56; 51; 54; 52; 56; 0] 0 = Ok (2147483648, strAllRight) /\
  IntToStr 32 16 (repeat 1 12) (-120) (repeat 2 6) = Ok [45; 49; 50; 48; 0; 2] /\ LengthInt 32 16 (-120) = Ok 4.
Proof.
  split; [split; [reflexivity |]; split; [cbn; auto 10 | vm_compute; reflexivity] |]. split; [| vm_compute; auto 10].
  apply whole_parts. exists [32; 32], false, [45], [49; 50; 48]. split; [reflexivity |]. split; [repeat constructor |]. split; [reflexivity |]. split; [discriminate |]. split; [repeat constructor; unfold digit; lia | reflexivity].
Qed.

Print Assumptions C64_str_to_int.
Print Assumptions C64_one_value.
Print Assumptions C64_empty_refuted.
Print Assumptions C64_range_refuted.
Print Assumptions C64_int_to_str.
Print Assumptions C64_int_to_str_32.
Print Assumptions C64_round_trip.
Print Assumptions C64_long_traps.
Print Assumptions C64_long_refuted.
Print Assumptions C64_length_int.
