(** Properties C23, C24, C25: standard output. *)
From Verif Require Import Base ArrZ ArithModel ArithSpec ArithProofs StringsModel StringsProofs OutModel OutSpec OutProofs OutHexProofs.

(** * The specification determines the text *)
Lemma digval_inj : forall c e d, digval c = Some d -> digval e = Some d -> c = e.
Proof.
  intros c e d. unfold digval. destruct ((48 <=? c) && (c <=? 57)) eqn:A, ((48 <=? e) && (e <=? 57)) eqn:B; try (intros H1 H2; inversion H1; inversion H2; lia);
  destruct ((65 <=? c) && (c <=? 70)) eqn:C, ((65 <=? e) && (e <=? 70)) eqn:D; intros H1 H2; try discriminate; inversion H1; inversion H2; lia.
Qed.
Lemma numeral_inv : forall base ds v, numeral base ds v -> ds = [] /\ v = 0 \/
  exists l c u d, ds = l ++ [c] /\ v = u * base + d /\ numeral base l u /\ digval c = Some d /\ 0 <= d < base.
Proof. intros base ds v H. destruct H as [|l u c d]; [left; auto|right; exists l, c, u, d; auto]. Qed.
Lemma numeral_upper : forall base ds v, 1 < base -> numeral base ds v -> 0 <= v < base ^ zlen ds.
Proof.
  intros base ds v Hb H. induction H as [|l u c d H IH Hc Hd]; [rewrite zlen_nil, Z.pow_0_r; lia|].
  rewrite zlen_app. change (zlen [c]) with 1. pose proof (zlen_nonneg _ l). rewrite Z.pow_add_r, Z.pow_1_r by lia. nia.
Qed.
Lemma numeral_unique_len : forall base, 1 < base -> forall l1 v, numeral base l1 v -> forall l2, numeral base l2 v -> zlen l1 = zlen l2 -> l1 = l2.
Proof.
  intros base Hb l1 v H. induction H as [|l u c d H IH Hc Hd]; intros l2 H2 L.
  - destruct l2; auto. rewrite zlen_nil, zlen_cons in L. pose proof (zlen_nonneg _ l2). lia.
  - destruct (numeral_inv _ _ _ H2) as [(-> & _)|(m & e & w & f & -> & E & Hm & He & Hf)].
    + rewrite zlen_app, zlen_nil in L. change (zlen [c]) with 1 in L. pose proof (zlen_nonneg _ l). lia.
    + rewrite !zlen_app in L. change (zlen [c]) with 1 in L. change (zlen [e]) with 1 in L. assert (u = w) by nia. subst w. assert (d = f) by lia. subst f.
      rewrite (IH m Hm ltac:(lia)), (digval_inj c e d Hc He). reflexivity.
Qed.
Lemma numeral_unique : forall base l1 l2 v, 1 < base -> numeral base l1 v -> numeral base l2 v -> no_leading_zero l1 -> no_leading_zero l2 -> l1 = l2.
Proof.
  intros base l1 l2 v Hb H1 H2 N1 N2. apply (numeral_unique_len base Hb l1 v H1 l2 H2).
  assert (P1 : 0 < zlen l1) by (destruct l1; [contradiction|rewrite zlen_cons; pose proof (zlen_nonneg _ l1); lia]).
  assert (P2 : 0 < zlen l2) by (destruct l2; [contradiction|rewrite zlen_cons; pose proof (zlen_nonneg _ l2); lia]).
  pose proof (numeral_upper _ _ _ Hb H1). pose proof (numeral_upper _ _ _ Hb H2).
  assert (Z0 : forall l, numeral base l 0 -> no_leading_zero l -> zlen l = 1).
  { intros l H3 N. destruct l as [|a [|b l]]; [contradiction|reflexivity|]. exfalso.
    pose proof (proj2 (numeral_pos _ _ _ Hb H3) a (b :: l) eq_refl N). lia. }
  destruct (Z.eq_dec v 0) as [->|NZ]; [rewrite (Z0 _ H1 N1), (Z0 _ H2 N2); reflexivity|].
  pose proof (numeral_lower _ _ _ Hb H1 N1 ltac:(lia)). pose proof (numeral_lower _ _ _ Hb H2 N2 ltac:(lia)).
  assert (base ^ (zlen l1 - 1) < base ^ zlen l2) by lia. assert (base ^ (zlen l2 - 1) < base ^ zlen l1) by lia.
  apply Z.pow_lt_mono_r_iff in H5; try lia. apply Z.pow_lt_mono_r_iff in H6; lia.
Qed.

(** The decimal text of a number exists once, and different numbers have different texts. *)
Theorem C23_text_unique : forall x t1 t2, is_int_text x t1 -> is_int_text x t2 -> t1 = t2.
Proof.
  intros x t1 t2 (d1 & -> & N1 & Z1) (d2 & -> & N2 & Z2). f_equal. apply (numeral_unique 10 d1 d2 (Z.abs x)); auto. lia.
Qed.
Print Assumptions C23_text_unique.

Lemma numeral_value : forall base l v, numeral base l v -> forall w, numeral base l w -> v = w.
Proof.
  intros base l v H. induction H as [|l u c d H IH Hc Hd]; intros w H2.
  - destruct (numeral_inv _ _ _ H2) as [(_ & ->)|(m & e & z & f & E & _)]; auto. destruct m; discriminate.
  - destruct (numeral_inv _ _ _ H2) as [(E & _)|(m & e & z & f & E & -> & Hm & He & Hf)]; [destruct l; discriminate|].
    apply app_inj_tail in E. destruct E as [<- <-]. rewrite (IH z Hm). congruence.
Qed.
Lemma numeral_chars : forall base l v, base <= 10 -> numeral base l v -> Forall (fun c => 48 <= c <= 57) l.
Proof.
  intros base l v Hb H. induction H as [|l u c d H IH Hc Hd]; constructor || (apply Forall_app; split; auto). constructor; [|constructor].
  unfold digval in Hc. destruct ((48 <=? c) && (c <=? 57)) eqn:A; [lia|]. destruct ((65 <=? c) && (c <=? 70)) eqn:B; [inversion Hc; lia|discriminate].
Qed.
Theorem C23_text_determines : forall x y t, is_int_text x t -> is_int_text y t -> x = y.
Proof.
  intros x y t (d1 & -> & N1 & Z1) (d2 & E & N2 & Z2).
  pose proof (numeral_chars 10 _ _ ltac:(lia) N1) as F1. pose proof (numeral_chars 10 _ _ ltac:(lia) N2) as F2.
  destruct (x <? 0) eqn:A, (y <? 0) eqn:B; cbn [app] in E.
  - inversion E; subst. pose proof (numeral_value _ _ _ N1 _ N2). lia.
  - subst d2. inversion F2; lia.
  - subst d1. inversion F1; lia.
  - subst. pose proof (numeral_value _ _ _ N1 _ N2). lia.
Qed.
Print Assumptions C23_text_determines.

(** * C23 *)
(** Out.Int(x, n) writes the decimal text of x, right-adjusted in a field of n characters: for every 64-bit x, every n, every
    state of the buffer, whatever the local array contained before. *)
Theorem C23_int : forall b x n s, OInv s -> zlen b = 22 -> in_int 64 x ->
  exists s' t, OInt full b x n s = Ok s' /\ OInv s' /\ is_int_text x t /\ otext s' = otext s ++ padded n t.
Proof. exact OInt_spec. Qed.
Print Assumptions C23_int.

(** * C24 *)
(** Out.Hex(x, n) for x >= 0 writes hexadecimal digits denoting x, at least n of them (n between 1 and 16), and no leading zero
    beyond n digits.  Stated for a machine on which a shift by 64 is a shift by 0. *)
Theorem C24_hex_nonneg : forall x n s, OInv s -> 0 <= x < 2 ^ 63 ->
  exists s' ds, OHex full ROT_wrap x n s = Ok s' /\ OInv s' /\ otext s' = otext s ++ ds /\ numeral 16 ds x /\
    zlen ds >= clampw n /\ (zlen ds > clampw n -> no_leading_zero ds).
Proof.
  intros x n s I Hx. unfold OHex. set (n1 := if n <? 1 then 1 else if n >? 16 then 16 else n).
  assert (En : n1 = clampw n) by (unfold n1, clampw; destruct (n <? 1) eqn:?, (n >? 16) eqn:?; lia).
  assert (Bn : 1 <= n1 <= 16) by (rewrite En; unfold clampw; lia). rewrite <- En. clearbody n1. clear En.
  replace (x >=? 0) with true by lia. destruct (hex_width_spec 17 x n1) as (w & A & B & C & D); try lia. rewrite A, bind_ok.
  destruct (hex_tail ROT_wrap w x s good_ROT_wrap I) as (s' & ds & E & F & G & L & N); try lia.
  - apply in_int64. change (2 ^ 63) with 9223372036854775808 in *. lia.
  - intros _. reflexivity.
  - exists s', ds. split; auto. split; auto. split; auto.
    rewrite (Z.mod_small x) in N by (change (2 ^ 63) with 9223372036854775808 in *; change (2 ^ 64) with 18446744073709551616; lia).
    rewrite Z.mod_small in N by lia. split; auto. split; [lia|]. intro Q. destruct D as [D|D]; [lia|].
    destruct ds as [|a [|b ds]]; [rewrite zlen_nil in L; lia|exact Logic.I|]. cbn [no_leading_zero]. intros ->.
    assert (NL : forall l u, numeral 16 l u -> forall t, l = 48 :: t -> u < 16 ^ zlen t).
    { clear. intros l u H. induction H as [|l u c d H IH Hc Hd]; intros t E; [discriminate|]. destruct l as [|a l]; cbn [app] in E; inversion E; subst.
      - rewrite zlen_nil, Z.pow_0_r. inversion Hc. subst. pose proof (numeral_upper 16 _ _ ltac:(lia) H) as Q. rewrite zlen_nil, Z.pow_0_r in Q. lia.
      - specialize (IH l eq_refl). rewrite zlen_app. change (zlen [c]) with 1. pose proof (zlen_nonneg _ l). rewrite Z.pow_add_r, Z.pow_1_r by lia. lia. }
    pose proof (NL _ _ N _ eq_refl) as Q2. rewrite !zlen_cons in *. replace (1 + (1 + zlen ds)) with (1 + zlen ds + 1) in L by lia. replace (w - 1) with (1 + zlen ds) in D by lia. lia.
Qed.
Print Assumptions C24_hex_nonneg.
(** A negative x is written with exactly n digits (n between 1 and 16): the n low-order digits of its 64-bit two's complement. *)
Theorem C24_hex_negative : forall x n s, OInv s -> - 2 ^ 63 <= x < 0 ->
  exists s' ds, OHex full ROT_wrap x n s = Ok s' /\ OInv s' /\ otext s' = otext s ++ ds /\ zlen ds = clampw n /\
    numeral 16 ds (x mod 2 ^ 64 mod 16 ^ clampw n).
Proof.
  intros x n s I Hx. unfold OHex. set (n1 := if n <? 1 then 1 else if n >? 16 then 16 else n).
  assert (En : n1 = clampw n) by (unfold n1, clampw; destruct (n <? 1) eqn:?, (n >? 16) eqn:?; lia).
  assert (Bn : 1 <= n1 <= 16) by (rewrite En; unfold clampw; lia). rewrite <- En. clearbody n1. clear En.
  replace (x >=? 0) with false by lia. rewrite bind_ok. apply (hex_tail ROT_wrap n1 x s good_ROT_wrap I); auto.
  apply in_int64. change (2 ^ 63) with 9223372036854775808 in *. lia.
Qed.
Print Assumptions C24_hex_negative.
(** In C proper (a shift by 64 is undefined) the same holds whenever fewer than 16 digits are written. *)
Theorem C24_hex_strict_partial : forall x n s, OInv s -> n < 16 -> - 2 ^ 63 <= x < 16 ^ 15 ->
  exists s' ds v, OHex full (fun x n => ROT x n 64) x n s = Ok s' /\ OInv s' /\ otext s' = otext s ++ ds /\ numeral 16 ds v /\
    (0 <= x -> v = x /\ zlen ds >= clampw n) /\ (x < 0 -> v = x mod 2 ^ 64 mod 16 ^ clampw n /\ zlen ds = clampw n).
Proof.
  intros x n s I Hn Hx. unfold OHex. set (n1 := if n <? 1 then 1 else if n >? 16 then 16 else n).
  assert (En : n1 = clampw n) by (unfold n1, clampw; destruct (n <? 1) eqn:?, (n >? 16) eqn:?; lia).
  assert (Bn : 1 <= n1 < 16) by (rewrite En; unfold clampw; lia). rewrite <- En. clearbody n1. clear En.
  assert (Hi : in_int 64 x) by (apply in_int64; change (2 ^ 63) with 9223372036854775808 in *; change (16 ^ 15) with 1152921504606846976 in *; lia).
  destruct (x >=? 0) eqn:E.
  - destruct (hex_width_spec 17 x n1) as (w & A & B & C & D); try lia. rewrite A, bind_ok.
    assert (Hw : w < 16). { destruct D as [D|D]; [lia|]. destruct (Z_lt_le_dec w 16); auto. exfalso. replace w with 16 in D by lia. change (16 - 1) with 15 in D. lia. }
    destruct (hex_tail (fun x n => ROT x n 64) w x s good_ROT I Hi) as (s' & ds & G & F & T & L & N); try lia.
    exists s', ds, x. rewrite (Z.mod_small x) in N by (change (2 ^ 64) with 18446744073709551616; change (16 ^ 15) with 1152921504606846976 in *; lia).
    rewrite Z.mod_small in N by lia. split; auto. split; auto. split; auto. split; auto. split; intros; [split; [auto|lia]|lia].
  - rewrite bind_ok. destruct (hex_tail (fun x n => ROT x n 64) n1 x s good_ROT I Hi) as (s' & ds & G & F & T & L & N); try lia.
    eexists s', ds, _. split; [exact G|]. split; auto. split; auto. split; [exact N|]. split; intros; [lia|auto].
Qed.
Print Assumptions C24_hex_strict_partial.
(** Writing 16 digits rotates by 0 first, which is undefined behaviour in C (see C03_rot_by_zero_refuted). *)
Theorem C24_hex_sixteen_refuted : forall x n s, n >= 16 -> OHex full (fun x n => ROT x n 64) x n s = UB.
Proof.
  intros x n s H. unfold OHex. replace (n <? 1) with false by lia.
  replace (if n >? 16 then 16 else n) with 16 by (destruct (n >? 16) eqn:?; lia). destruct (x >=? 0); reflexivity.
Qed.
Print Assumptions C24_hex_sixteen_refuted.
(** The digits written for a negative number do not denote it when n < 16: -1 is written as F, the text for 15. *)
Theorem C24_hex_negative_refuted : exists x y n s s1 s2, x <> y /\ in_int 64 x /\ in_int 64 y /\
  OHex full ROT_wrap x n s = Ok s1 /\ OHex full ROT_wrap y n s = Ok s2 /\ otext s1 = otext s2.
Proof.
  exists (-1), 15, 1, oinit. do 2 eexists. split; [lia|]. split; [apply in_int64; lia|]. split; [apply in_int64; lia|].
  split; [vm_compute; reflexivity|]. split; [vm_compute; reflexivity|reflexivity].
Qed.
Print Assumptions C24_hex_negative_refuted.

(** * C25 *)
Inductive oop := PChar (c : Z) | PString (s : list Z) | PLn | PFlush | PInt (b : list Z) (x n : Z) | PHex (x n : Z).
Definition ostep (acc : Z -> Z) (o : oop) (s : ost) : res ost :=
  match o with
  | PChar c => OChar acc c s | PString t => OString acc t s | PLn => OLn acc s | PFlush => Ok (OFlush acc s)
  | PInt b x n => OInt acc b x n s | PHex x n => OHex acc ROT_wrap x n s
  end.
Fixpoint orun (acc : Z -> Z) (os : list oop) (s : ost) : res ost :=
  match os with [] => Ok s | o :: os => let* s := ostep acc o s in orun acc os s end.
(** The arguments a program can pass. *)
Definition ovalid (o : oop) : Prop :=
  match o with PInt b x _ => zlen b = 22 /\ in_int 64 x | PHex x _ => in_int 64 x | _ => True end.
(** What one call should add to the output. *)
Definition oadds (o : oop) (t : list Z) : Prop :=
  match o with
  | PChar c => t = [c] | PString s => t = str_of s | PLn => t = [10] | PFlush => t = []
  | PInt _ x n => exists u, is_int_text x u /\ t = padded n u
  | PHex x n => if x <? 0 then zlen t = clampw n /\ numeral 16 t (x mod 2 ^ 64 mod 16 ^ clampw n)
                else numeral 16 t x /\ zlen t >= clampw n /\ (zlen t > clampw n -> no_leading_zero t)
  end.
Definition empty_string (o : oop) : Prop := exists s, o = PString s /\ str_of s = [].

Lemma ostep_spec : forall o s, OInv s -> ovalid o ->
  match ostep full o s with
  | Ok s' => OInv s' /\ exists t, oadds o t /\ otext s' = otext s ++ t
  | Trap t => t = -2 /\ empty_string o /\ oin s = 128
  | _ => False
  end.
Proof.
  intros o s I V. destruct o as [c|str| | |b x n|x n]; cbn [ostep ovalid oadds] in *.
  - destruct (OChar_spec c s I) as (s' & -> & A & B & _). split; auto. exists [c]. auto.
  - pose proof (OString_spec str s I) as H. destruct (OString full str s); try contradiction.
    + destruct H as [A B]. split; auto. exists (str_of str). auto.
    + destruct H as (A & B & C). split; auto. split; [exists str; auto|auto].
  - unfold OLn. pose proof (OString_spec [10; 0] s I) as H. destruct (OString full [10; 0] s) as [s1| | |]; try contradiction.
    + destruct H as [A B]. cbn [bind]. destruct (OFlush_spec s1 A) as (C & D & _). split; auto. exists [10]. split; auto. rewrite D, B. reflexivity.
    + cbn [bind]. destruct H as (_ & H & _). discriminate.
  - destruct (OFlush_spec s I) as (C & D & _). split; auto. exists []. split; auto. rewrite app_nil_r. auto.
  - destruct V as [V1 V2]. destruct (OInt_spec b x n s I V1 V2) as (s' & t & -> & A & B & C). split; auto. exists (padded n t). split; eauto.
  - apply in_int64 in V. destruct (x <? 0) eqn:E.
    + destruct (C24_hex_negative x n s I) as (s' & ds & -> & A & B & C & D); [change (2 ^ 63) with 9223372036854775808; lia|]. split; auto. exists ds. auto.
    + destruct (C24_hex_nonneg x n s I) as (s' & ds & -> & A & B & C & D); [change (2 ^ 63) with 9223372036854775808; lia|]. split; auto. exists ds. auto.
Qed.

(** For every history of calls: either the delivered and pending bytes are exactly the texts of the calls in order, and a final Flush
    delivers all of them; or the program was stopped by an index trap at an empty string written while exactly 128 bytes were pending. *)
Theorem C25_buffering : forall os, Forall ovalid os ->
  match orun full os oinit with
  | Ok s => exists ts, Forall2 oadds os ts /\ delivered (OFlush full s) = concat ts /\
              (exists rest, concat ts = delivered s ++ rest)
  | Trap t => t = -2 /\ exists o, In o os /\ empty_string o
  | _ => False
  end.
Proof.
  assert (G : forall os s, OInv s -> Forall ovalid os ->
    match orun full os s with
    | Ok s' => OInv s' /\ exists ts, Forall2 oadds os ts /\ otext s' = otext s ++ concat ts
    | Trap t => t = -2 /\ exists o, In o os /\ empty_string o
    | _ => False
    end).
  { induction os as [|o os IH]; intros s I V; cbn [orun].
    - split; auto. exists []. split; [constructor|]. cbn [concat]. rewrite app_nil_r. auto.
    - inversion V; subst. pose proof (ostep_spec o s I H1) as S. destruct (ostep full o s) as [s1| | |]; try contradiction; cbn [bind].
      + destruct S as [I1 (t & A & B)]. specialize (IH s1 I1 H2). destruct (orun full os s1); try contradiction.
        * destruct IH as [I2 (ts & C & D)]. split; auto. exists (t :: ts). split; [constructor; auto|]. cbn [concat]. rewrite D, B, <- app_assoc. auto.
        * destruct IH as (A1 & o' & A2 & A3). split; auto. exists o'. split; [right|]; auto.
      + destruct S as (A & B & _). split; auto. exists o. split; [left|]; auto. }
  intros os V. specialize (G os oinit). assert (I0 : OInv oinit) by (split; cbn; [reflexivity|lia]). specialize (G I0 V).
  destruct (orun full os oinit) as [s| | |]; auto. destruct G as [I (ts & A & B)]. exists ts. split; auto.
  destruct (OFlush_spec s I) as (_ & _ & _ & D). rewrite D, B. split; [reflexivity|]. change (otext oinit) with (@nil Z) in B. cbn [app] in B.
  exists (firstn (Z.to_nat (oin s)) (obuf s)). symmetry. exact B.
Qed.
Print Assumptions C25_buffering.
(** So without empty strings nothing is ever lost, duplicated or reordered. *)
Corollary C25_no_loss : forall os, Forall ovalid os -> Forall (fun o => ~ empty_string o) os ->
  exists s ts, orun full os oinit = Ok s /\ Forall2 oadds os ts /\ delivered (OFlush full s) = concat ts.
Proof.
  intros os V N. pose proof (C25_buffering os V) as H. destruct (orun full os oinit) as [s| | |]; try contradiction.
  - destruct H as (ts & A & B & _). eauto.
  - destruct H as (_ & o & A & B). rewrite Forall_forall in N. destruct (N o A B).
Qed.
Print Assumptions C25_no_loss.
(** After Ln, or after the character 0AX, nothing is pending. *)
Theorem C25_newline_flushes : forall s o s', OInv s -> (o = PLn \/ o = PChar 10) -> ostep full o s = Ok s' -> delivered s' = otext s' /\ oin s' = 0.
Proof.
  intros s o s' I [->| ->] H; cbn [ostep] in H.
  - unfold OLn in H. pose proof (OString_spec [10; 0] s I) as S. destruct (OString full [10; 0] s) as [s1| | |]; try contradiction; cbn [bind] in H; [|discriminate].
    destruct S as [A _]. injection H as <-. destruct (OFlush_spec s1 A) as (C & D & E & F). split; congruence.
  - destruct (OChar_spec 10 s I) as (s1 & A & B & C & D). rewrite A in H. injection H as <-. specialize (D eq_refl). unfold otext. rewrite D. cbn [Z.to_nat firstn]. rewrite app_nil_r. auto.
Qed.
Print Assumptions C25_newline_flushes.
(** The empty string stops the program when 128 bytes are pending. *)
Theorem C25_empty_string_refuted : exists os, Forall ovalid os /\ orun full os oinit = Trap (-2).
Proof.
  exists (repeat (PChar 120) 128 ++ [PString [0]]). split; [|vm_compute; reflexivity].
  apply Forall_app. split; [|repeat constructor]. apply Forall_forall. intros o H. apply repeat_spec in H. subst. exact Logic.I.
Qed.
Print Assumptions C25_empty_string_refuted.
(** If the operating system accepts only part of a write (a pipe or a full disk), the rest disappears without notice. *)
Theorem C25_short_write_refuted : exists acc os s, (forall l, 0 <= l -> 0 <= acc l <= l) /\ (forall l, 0 < l -> 0 < acc l) /\ Forall ovalid os /\
  orun acc os oinit = Ok s /\ delivered (OFlush acc s) = [104] /\ Forall2 oadds os [[104; 105]; [10]].
Proof.
  exists (fun l => Z.min l 1), [PString [104; 105; 0]; PLn]. eexists. split; [lia|]. split; [lia|].
  split; [repeat constructor|]. split; [vm_compute; reflexivity|]. split; [reflexivity|]. repeat constructor.
Qed.
Print Assumptions C25_short_write_refuted.

(** Non-vacuity. *)
Example C23_nonvacuous : exists s', OInt full (repeat 88 22) (- 2 ^ 63) 22 oinit = Ok s' /\
  otext s' = [32; 32; 45; 57; 50; 50; 51; 51; 55; 50; 48; 51; 54; 56; 53; 52; 55; 55; 53; 56; 48; 56].
Proof. eexists. split; vm_compute; reflexivity. Qed.
Example C24_nonvacuous : exists s', OHex full ROT_wrap 48879 6 oinit = Ok s' /\ otext s' = [48; 48; 66; 69; 69; 70].
Proof. eexists. split; vm_compute; reflexivity. Qed.
Example C25_nonvacuous : Forall ovalid [PString [104; 0]; PInt (repeat 0 22) (-5) 4; PLn; PChar 65] /\
  match orun full [PString [104; 0]; PInt (repeat 0 22) (-5) 4; PLn; PChar 65] oinit with Ok s => delivered s = [104; 32; 32; 45; 53; 10] /\ oin s = 1 | _ => False end.
Proof. split; [repeat constructor; vm_compute; congruence|vm_compute; auto]. Qed.
