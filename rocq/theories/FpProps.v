(** Fingerprints detect a single change (C45). *)
From Verif Require Import Base ArithSpec ArithModel ArithProofs ArithProps OpsProps FpModel.

Definition word (x : Z) : Prop := in_int 32 x.

Lemma w32 : int_width 32.
Proof. unfold int_width. lia. Qed.
Lemma step_ok : forall fp l, exists r, step fp l = Ok r /\ word r.
Proof. intros fp l. unfold step. destruct (C03_rot_partial (wrap_s 32 (Z.lxor (wrap_u 32 fp) (wrap_u 32 l))) 1 32 w32 ltac:(apply wrap_s_range; lia) ltac:(lia) ltac:(lia)) as (r & E & R & _). eauto. Qed.
Lemma step_bits : forall fp l r, step fp l = Ok r -> forall i, 0 <= i < 32 -> Z.testbit r i = xorb (Z.testbit fp ((i - 1) mod 32)) (Z.testbit l ((i - 1) mod 32)).
Proof.
  intros fp l r H i Hi. unfold step in H. destruct (C03_rot_partial (wrap_s 32 (Z.lxor (wrap_u 32 fp) (wrap_u 32 l))) 1 32 w32 ltac:(apply wrap_s_range; lia) ltac:(lia) ltac:(lia)) as (r' & E & _ & B & _). rewrite E in H. injection H as ->.
  rewrite B by lia. pose proof (Z.mod_pos_bound (i - 1) 32 ltac:(lia)). rewrite testbit_wrap_s by lia. rewrite Z.lxor_spec, !testbit_wrap_u by lia. replace ((i - 1) mod 32 <? 32) with true by lia. reflexivity.
Qed.
Lemma shift_bits : forall x y, (forall i, 0 <= i < 32 -> Z.testbit x ((i - 1) mod 32) = Z.testbit y ((i - 1) mod 32)) -> forall i, 0 <= i < 32 -> Z.testbit x i = Z.testbit y i.
Proof.
  intros x y H i Hi. specialize (H ((i + 1) mod 32) (Z.mod_pos_bound _ 32 ltac:(lia))). replace (((i + 1) mod 32 - 1) mod 32) with i in H by lia. exact H.
Qed.
Lemma step_inj_word : forall fp l l' r, word l -> word l' -> step fp l = Ok r -> step fp l' = Ok r -> l = l'.
Proof.
  intros fp l l' r H H' E E'. apply (in_int_bits_inj 32); [lia | exact H | exact H' |]. apply shift_bits. intros i Hi. pose proof (step_bits _ _ _ E i Hi) as B. rewrite (step_bits _ _ _ E' i Hi) in B.
  destruct (Z.testbit fp ((i - 1) mod 32)), (Z.testbit l ((i - 1) mod 32)), (Z.testbit l' ((i - 1) mod 32)); cbn in B; congruence.
Qed.
Lemma step_inj_fp : forall fp fp' l r, word fp -> word fp' -> step fp l = Ok r -> step fp' l = Ok r -> fp = fp'.
Proof.
  intros fp fp' l r H H' E E'. apply (in_int_bits_inj 32); [lia | exact H | exact H' |]. apply shift_bits. intros i Hi. pose proof (step_bits _ _ _ E i Hi) as B. rewrite (step_bits _ _ _ E' i Hi) in B.
  destruct (Z.testbit fp ((i - 1) mod 32)), (Z.testbit fp' ((i - 1) mod 32)), (Z.testbit l ((i - 1) mod 32)); cbn in B; congruence.
Qed.
Lemma words_ok : forall ws fp, word fp -> exists r, FingerprintWords ws fp = Ok r /\ word r.
Proof. induction ws as [| l ws IH]; intros fp H; cbn [FingerprintWords]; [eauto |]. destruct (step_ok fp l) as (r & -> & R). rewrite bind_ok. apply IH, R. Qed.
Lemma words_app : forall a b fp, FingerprintWords (a ++ b) fp = bind (FingerprintWords a fp) (FingerprintWords b).
Proof. induction a as [| l a IH]; intros b fp; cbn [app FingerprintWords bind]; [reflexivity |]. destruct (step fp l); cbn [bind]; auto. Qed.
Lemma words_inj_fp : forall ws fp fp' r, word fp -> word fp' -> FingerprintWords ws fp = Ok r -> FingerprintWords ws fp' = Ok r -> fp = fp'.
Proof.
  induction ws as [| l ws IH]; intros fp fp' r H H' E E'; cbn [FingerprintWords] in *; [congruence |]. destruct (step_ok fp l) as (a & Ea & Ra), (step_ok fp' l) as (b & Eb & Rb). rewrite Ea, bind_ok in E. rewrite Eb, bind_ok in E'.
  assert (a = b) as <- by (eapply IH; eassumption). eapply step_inj_fp; eassumption.
Qed.
(** Two sequences of words that differ in exactly one place have different fingerprints. *)
Theorem C45_one_word : forall a x y b fp, word fp -> word x -> word y -> x <> y -> exists f f', FingerprintWords (a ++ x :: b) fp = Ok f /\ FingerprintWords (a ++ y :: b) fp = Ok f' /\ f <> f'.
Proof.
  intros a x y b fp HF HX HY N. rewrite !words_app. destruct (words_ok a fp HF) as (c & -> & HC). cbn [bind FingerprintWords]. destruct (step_ok c x) as (p & EP & HP), (step_ok c y) as (q & EQ & HQ). rewrite EP, EQ, !bind_ok.
  destruct (words_ok b p HP) as (f & EF & _), (words_ok b q HQ) as (f' & EF' & _). exists f, f'. split; [exact EF |]. split; [exact EF' |]. intros <-. apply N. assert (p = q) as <- by (eapply words_inj_fp; eassumption). eapply step_inj_word; eassumption.
Qed.
(** Values are fingerprinted as two words. *)
Definition words_of (v : Z) : list Z := [wrap_s 32 v; wrap_s 32 (v / 2 ^ 32)].
Lemma FPrints_words : forall vs fp, FPrints vs fp = FingerprintWords (flat_map words_of vs) fp.
Proof. induction vs as [| v vs IH]; intros fp; cbn [FPrints flat_map]; [reflexivity |]. rewrite words_app. unfold FPrint, words_of. destruct (FingerprintWords [wrap_s 32 v; wrap_s 32 (v / 2 ^ 32)] fp); cbn [bind]; auto. Qed.
Lemma wrap_word : forall x, word (wrap_s 32 x).
Proof. intros. apply wrap_s_range. lia. Qed.
(** So a change of one value is detected if both values are 32-bit values of the same sign: in particular a change of one character of a name, of a form or mode, of a size
    or offset; and any change within one half of the value. *)
Theorem C45_one_value : forall a x y b fp, word fp -> word x -> word y -> (0 <= x <-> 0 <= y) -> x <> y -> exists f f', FPrints (a ++ x :: b) fp = Ok f /\ FPrints (a ++ y :: b) fp = Ok f' /\ f <> f'.
Proof.
  intros a x y b fp HF HX HY S N. rewrite !FPrints_words, !flat_map_app. cbn [flat_map]. unfold words_of at 2 5. cbn [app].
  assert (E : forall v, word v -> wrap_s 32 v = v) by (intros v Hv; apply wrap_s_id; [lia | exact Hv]). rewrite (E x HX), (E y HY).
  assert (D : x / 2 ^ 32 = y / 2 ^ 32). { unfold word, in_int in *. change (2 ^ (32 - 1)) with 2147483648 in *. change (2 ^ 32) with 4294967296. lia. }
  rewrite D. apply C45_one_word; assumption.
Qed.
Theorem C45_name : forall a c d b fp, word fp -> 0 <= c < 256 -> 0 <= d < 256 -> c <> d -> exists f f', FPrintName fp (a ++ c :: b) = Ok f /\ FPrintName fp (a ++ d :: b) = Ok f' /\ f <> f'.
Proof.
  intros a c d b fp HF HC HD N. unfold FPrintName. rewrite <- !app_assoc. cbn [app]. apply C45_one_value; try assumption; try lia; unfold word, in_int; change (2 ^ (32 - 1)) with 2147483648; lia.
Qed.
(** Beyond the claim: two changed words can cancel, and the two words of one value can.  A value x and -1 - x always have the same fingerprint, so that an exported constant
    can change its sign unnoticed; and so can a set get two elements. *)
Lemma step_not : forall fp l r, step fp l = Ok r -> step fp (-1 - l) = Ok (-1 - r).
Proof.
  intros fp l r H. destruct (step_ok fp (-1 - l)) as (r' & E & R). rewrite E. f_equal. destruct (step_ok fp l) as (r0 & E0 & R0). rewrite H in E0. injection E0 as <-.
  apply (in_int_bits_inj 32); [lia | exact R | unfold word, in_int in *; lia |]. intros i Hi. rewrite (step_bits _ _ _ E i Hi). replace (-1 - r) with (Z.lnot r) by (unfold Z.lnot; lia). replace (-1 - l) with (Z.lnot l) by (unfold Z.lnot; lia).
  pose proof (Z.mod_pos_bound (i - 1) 32 ltac:(lia)). rewrite !Z.lnot_spec by lia. rewrite (step_bits _ _ _ H i Hi). destruct (Z.testbit fp ((i - 1) mod 32)), (Z.testbit l ((i - 1) mod 32)); reflexivity.
Qed.
Lemma step_not2 : forall fp l r, step fp l = Ok r -> step (-1 - fp) (-1 - l) = Ok r.
Proof.
  intros fp l r H. destruct (step_ok (-1 - fp) (-1 - l)) as (r' & E & R). rewrite E. f_equal. destruct (step_ok fp l) as (r0 & E0 & R0). rewrite H in E0. injection E0 as <-.
  apply (in_int_bits_inj 32); [lia | exact R | exact R0 |]. intros i Hi. rewrite (step_bits _ _ _ E i Hi), (step_bits _ _ _ H i Hi). replace (-1 - fp) with (Z.lnot fp) by (unfold Z.lnot; lia). replace (-1 - l) with (Z.lnot l) by (unfold Z.lnot; lia).
  pose proof (Z.mod_pos_bound (i - 1) 32 ltac:(lia)). rewrite !Z.lnot_spec by lia. destruct (Z.testbit fp ((i - 1) mod 32)), (Z.testbit l ((i - 1) mod 32)); reflexivity.
Qed.
Lemma wrap_not : forall x, wrap_s 32 (-1 - x) = -1 - wrap_s 32 x.
Proof. intros x. unfold wrap_s. change (2 ^ 32) with 4294967296. change (2 ^ (32 - 1)) with 2147483648. lia. Qed.
Theorem C45_sign_collision : forall fp x, FPrint fp (-1 - x) = FPrint fp x.
Proof.
  intros fp x. unfold FPrint. cbn [FingerprintWords]. rewrite wrap_not. destruct (step_ok fp (wrap_s 32 x)) as (a & Ea & _). rewrite Ea, (step_not _ _ _ Ea), !bind_ok.
  replace ((-1 - x) / 2 ^ 32) with (-1 - x / 2 ^ 32) by (change (2 ^ 32) with 4294967296; lia). rewrite wrap_not. destruct (step_ok a (wrap_s 32 (x / 2 ^ 32))) as (b & Eb & _). rewrite Eb, (step_not2 _ _ _ Eb). reflexivity.
Qed.
Theorem C45_constant_collision : (forall n, FPrintConst 4 n = FPrintConst 4 (-1 - n)) /\ FPrintConst 7 0 = FPrintConst 7 (2 ^ 0 + 2 ^ 33).
Proof.
  split; [| vm_compute; reflexivity]. intros n. unfold FPrintConst. cbn [FPrints]. destruct (FPrint 0 3) as [a | | |]; cbn [bind]; try reflexivity. destruct (FPrint a 4) as [b | | |]; cbn [bind]; try reflexivity. rewrite C45_sign_collision. reflexivity.
Qed.
Example C45_example : FPrintName 0 [65; 66] <> FPrintName 0 [65; 67] /\ word 0 /\ FPrintConst 4 5 = FPrintConst 4 (-6) /\ FPrintConst 4 5 <> FPrintConst 4 6.
Proof. repeat split; try (vm_compute; congruence). Qed.

Print Assumptions C45_one_word.
Print Assumptions C45_one_value.
Print Assumptions C45_name.
Print Assumptions C45_constant_collision.
