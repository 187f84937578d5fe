(** C34: dates and times survive packing. *)
From Verif Require Import Base ArithModel ArithSpec ArithProofs ArithProps DateModel.

(** A calendar date and a time of day as the C library delivers them: the year counts from 1900, months from 0, a second may be 60. *)
Definition valid_time (ye mo da ho mi se : Z) : Prop := 0 <= ye < 2 ^ 31 /\ 0 <= mo < 12 /\ 1 <= da <= 31 /\ 0 <= ho < 24 /\ 0 <= mi < 60 /\ 0 <= se <= 60.
(** Two decimal digits. *)
Definition two (x : Z) : list Z := [48 + x / 10; 48 + x mod 10].

Lemma DIV32 : forall x y, in_int 32 x -> in_int 32 y -> y <> 0 -> DIV_inline 32 x y = Ok (x / y) /\ MOD_inline 32 x y = Ok (x mod y).
Proof.
  intros x y Hx Hy N. destruct (C01_div_mod_upto_32_bits 32 x y ltac:(lia) Hx Hy N) as (q & r & (F & F1 & F2) & E1 & E2 & E). destruct (E 32 ltac:(lia)) as [-> ->].
  split; f_equal; destruct (Z_lt_ge_dec 0 y); [apply (Z.div_unique x y q r); [left|]|apply (Z.div_unique x y q r); [right|]|apply (Z.mod_unique x y q r); [left|]|apply (Z.mod_unique x y q r); [right|]]; lia.
Qed.
Lemma MASK_mod : forall x k, 0 <= k -> MASK x (- 2 ^ k) = x mod 2 ^ k.
Proof. intros x k K. unfold MASK. replace (Z.lnot (- 2 ^ k)) with (Z.ones k) by (rewrite Z.ones_equiv; unfold Z.lnot; lia). apply Z.land_ones; auto. Qed.
Lemma ASHR_div : forall x k, 0 <= k < 64 -> ASHR x k = Ok (x / 2 ^ k).
Proof. intros x k K. unfold ASHR. replace ((0 <=? k) && (k <? 64)) with true by lia. rewrite Z.shiftr_div_pow2 by lia. auto. Qed.
Lemma ASHL_mul : forall x k, 0 <= k < 64 -> in_int 64 (x * 2 ^ k) -> ASHL x k = Ok (x * 2 ^ k).
Proof. intros x k K R. unfold ASHL. replace ((0 <=? k) && (k <? 64)) with true by lia. rewrite Z.shiftl_mul_pow2 by lia. rewrite wrap_s_id; auto. lia. Qed.
Lemma chk_in : forall w x, in_int w x -> chk w x = Ok x.
Proof. intros w x H. unfold chk. apply in_intb_iff in H. rewrite H. auto. Qed.
Lemma pair_spec : forall ch x, 0 <= x < 128 -> WritePair ch x = Ok (ch :: two x).
Proof.
  intros ch x X. unfold WritePair. destruct (DIV32 x 10) as [E1 E2]; [unfold in_int; cbn; lia|unfold in_int; cbn; lia|lia|]. rewrite E1, bind_ok, E2. cbn [bind].
  rewrite !CHR_inline_nonneg by lia. replace (x / 10 + 48 <? 256) with true by lia. replace (x mod 10 + 48 <? 256) with true by lia. cbn [bind]. unfold two. rewrite (Z.add_comm 48 (x / 10)), (Z.add_comm 48 (x mod 10)). reflexivity.
Qed.

(** The packed time and date, as numbers that fit. *)
Lemma pack_value : forall ye mo da ho mi se, valid_time ye mo da ho mi se ->
  YMDHMStoClock ye mo da ho mi se = Ok (ho * 4096 + mi * 64 + se, (ye mod 100) * 512 + (mo + 1) * 32 + da).
Proof.
  intros ye mo da ho mi se (Y & M & D & H & I & S). unfold YMDHMStoClock. destruct (DIV32 ye 100) as [_ E]; [unfold in_int; change (2 ^ 31) with 2147483648 in *; cbn; lia|unfold in_int; cbn; lia|lia|]. rewrite E, bind_ok.
  pose proof (Z.mod_pos_bound ye 100 ltac:(lia)). set (y := ye mod 100) in *.
  rewrite ASHL_mul by (try lia; unfold in_int; cbn; lia). rewrite bind_ok, chk_in by (unfold in_int; cbn; lia). rewrite bind_ok, ASHL_mul by (try lia; unfold in_int; cbn; lia). rewrite bind_ok.
  change (2 ^ 9) with 512. change (2 ^ 5) with 32. rewrite chk_in by (unfold in_int; cbn; lia). rewrite bind_ok, chk_in by (unfold in_int; cbn; lia).
  rewrite bind_ok, ASHL_mul by (try lia; unfold in_int; cbn; lia). rewrite bind_ok, ASHL_mul by (try lia; unfold in_int; cbn; lia). change (2 ^ 12) with 4096. change (2 ^ 6) with 64. rewrite bind_ok, chk_in by (unfold in_int; cbn; lia). rewrite bind_ok, chk_in by (unfold in_int; cbn; lia).
  rewrite bind_ok. rewrite !wrap_s_id; auto; try lia; unfold in_int; cbn; lia.
Qed.

(** Packing is defined for every date and time; the fields are recovered from the packed values by the divisions given in the documentation, the century
    being dropped; and WriteDate prints exactly these fields. *)
Theorem C34_pack_unpack : forall ye mo da ho mi se, valid_time ye mo da ho mi se -> exists t d,
  YMDHMStoClock ye mo da ho mi se = Ok (t, d) /\ in_int 32 t /\ in_int 32 d /\
  d mod 32 = da /\ d / 32 mod 16 = mo + 1 /\ d / 512 mod 128 = ye mod 100 /\ t / 4096 mod 32 = ho /\ t / 64 mod 64 = mi /\ t mod 64 = se /\
  WriteDate t d = Ok ([32] ++ two da ++ [46] ++ two (mo + 1) ++ [46] ++ two (ye mod 100) ++ [32] ++ two ho ++ [58] ++ two mi ++ [58] ++ two se).
Proof.
  intros ye mo da ho mi se V. eexists _, _. split; [apply pack_value; auto|]. destruct V as (Y & M & D & H & I & S). pose proof (Z.mod_pos_bound ye 100 ltac:(lia)). set (y := ye mod 100) in *.
  set (t := ho * 4096 + mi * 64 + se). set (d := y * 512 + (mo + 1) * 32 + da).
  assert (F1 : d mod 32 = da) by (unfold d; lia). assert (F2 : d / 32 mod 16 = mo + 1) by (unfold d; lia). assert (F3 : d / 512 mod 128 = y) by (unfold d; lia).
  assert (F4 : t / 4096 mod 32 = ho) by (unfold t; lia). assert (F5 : t / 64 mod 64 = mi) by (unfold t; lia). assert (F6 : t mod 64 = se) by (unfold t; lia).
  split; [unfold in_int, t; cbn; lia|]. split; [unfold in_int, d; cbn; lia|]. do 6 (split; [assumption|]).
  unfold WriteDate. change (-32) with (- 2 ^ 5). change (-16) with (- 2 ^ 4). change (-128) with (- 2 ^ 7). change (-64) with (- 2 ^ 6). rewrite !ASHR_div by lia. cbn [bind]. rewrite !MASK_mod by lia.
  change (2 ^ 5) with 32. change (2 ^ 4) with 16. change (2 ^ 7) with 128. change (2 ^ 6) with 64. change (2 ^ 9) with 512. change (2 ^ 12) with 4096. rewrite F1, F2, F3, F4, F5, F6.
  rewrite !pair_spec by lia. reflexivity.
Qed.
(** Within a century the packed values are ordered as the dates and times are. *)
Theorem C34_order : forall ye mo da ho mi se ye' mo' da' ho' mi' se' t d t' d', valid_time ye mo da ho mi se -> valid_time ye' mo' da' ho' mi' se' -> ye / 100 = ye' / 100 ->
  YMDHMStoClock ye mo da ho mi se = Ok (t, d) -> YMDHMStoClock ye' mo' da' ho' mi' se' = Ok (t', d') ->
  (d < d' <-> ye < ye' \/ ye = ye' /\ (mo < mo' \/ mo = mo' /\ da < da')) /\ (d = d' <-> ye = ye' /\ mo = mo' /\ da = da') /\
  (t < t' <-> ho < ho' \/ ho = ho' /\ (mi < mi' \/ mi = mi' /\ se < se')) /\ (t = t' <-> ho = ho' /\ mi = mi' /\ se = se').
Proof.
  intros ye mo da ho mi se ye' mo' da' ho' mi' se' t d t' d' V V' C E E'. rewrite pack_value in E by auto. rewrite pack_value in E' by auto. inversion E; inversion E'; subst; clear E E'. destruct V as (Y & M & D & H & I & S), V' as (Y' & M' & D' & H' & I' & S').
  split; [|split; [|split]]; lia.
Qed.
(** 17 November 2026, 06:33:09. *)
Example date_example : valid_time 126 10 17 6 33 9 /\ (let* r := YMDHMStoClock 126 10 17 6 33 9 in let '(t, d) := r in WriteDate t d) = Ok [32; 49; 55; 46; 49; 49; 46; 50; 54; 32; 48; 54; 58; 51; 51; 58; 48; 57].
Proof. split; [unfold valid_time; change (2 ^ 31) with 2147483648; lia|reflexivity]. Qed.
Print Assumptions C34_pack_unpack. Print Assumptions C34_order.
