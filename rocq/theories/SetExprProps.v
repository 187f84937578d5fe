(** C71: set expressions denote the sets they are written for. *)
From Verif Require Import Base ArithModel ArithSpec ArithProofs SetExprSpec SetExprModel.

(** * Lemmas *)
Definition in_ty (t : cty) (v : Z) : Prop := match t with I32 => in_int 32 v | U32 => in_uint 32 v | I64 => in_int 64 v | U64 => in_uint 64 v end.
Definition wide (t : cty) : Z := match t with I32 | U32 => 32 | I64 | U64 => 64 end.
Lemma wide_cases : forall t, wide t = 32 \/ wide t = 64. Proof. intros []; cbn; auto. Qed.
Lemma cvt_bits : forall t v x, 0 <= x < wide t -> Z.testbit (cvt t v) x = Z.testbit v x.
Proof.
  intros t v x H. destruct t; cbn [cvt wide] in *.
  - apply testbit_wrap_s; lia.
  - rewrite testbit_wrap_u by lia. rewrite (proj2 (Z.ltb_lt x 32)) by lia. reflexivity.
  - apply testbit_wrap_s; lia.
  - rewrite testbit_wrap_u by lia. rewrite (proj2 (Z.ltb_lt x 64)) by lia. reflexivity.
Qed.
Lemma cvt_in : forall t v, in_ty t (cvt t v).
Proof. intros [] v; cbn [cvt in_ty]; try apply wrap_s_range; try apply wrap_u_range; lia. Qed.
Lemma literal_in : forall v, 0 <= v < 2 ^ 64 -> in_ty (literal_type v) v.
Proof.
  intros v H. unfold literal_type. change (2 ^ 31) with 2147483648. change (2 ^ 32) with 4294967296. change (2 ^ 63) with 9223372036854775808.
  change (2 ^ 64) with 18446744073709551616 in H.
  destruct (Z.ltb_spec v 2147483648); [|destruct (Z.ltb_spec v 4294967296); [|destruct (Z.ltb_spec v 9223372036854775808)]]; cbn [in_ty];
    unfold in_int, in_uint, min_int, max_int;
    [change (2 ^ (32 - 1)) with 2147483648 | change (2 ^ 32) with 4294967296 | change (2 ^ (64 - 1)) with 9223372036854775808 | change (2 ^ 64) with 18446744073709551616]; lia.
Qed.
Lemma upper_in : forall x, In x upper <-> 32 <= x < 64.
Proof.
  intro x. unfold upper. rewrite in_map_iff. split.
  - intros (k & <- & K). apply in_seq in K. lia.
  - intro H. exists (Z.to_nat (x - 32)). split; [lia|]. apply in_seq. lia.
Qed.
Lemma lt_pow_bits : forall v w, 0 <= w -> 0 <= v < 2 ^ 64 -> (forall x, w <= x < 64 -> Z.testbit v x = false) -> v < 2 ^ w.
Proof.
  intros v w W V H.
  assert (in_uint w v) as U.
  { apply bits_range; try lia. intros i Hi. destruct (Z.lt_ge_cases i 64); [apply H; lia|]. apply (uint_bits_high 64); try lia. unfold in_uint. lia. }
  unfold in_uint in U. lia.
Qed.
Lemma SetSetType_iff : forall v, 0 <= v -> SetSetType v = (if v <? 2 ^ 32 then 4 else 8).
Proof.
  intros v H. unfold SetSetType. rewrite Z.shiftr_div_pow2 by lia. change (2 ^ 32) with 4294967296.
  destruct (Z.ltb_spec v 4294967296); destruct (Z.eqb_spec (v / 4294967296) 0) as [E|E]; try reflexivity; exfalso.
  - apply E. apply Z.div_small. lia.
  - assert (1 <= v / 4294967296) by (apply Z.div_le_lower_bound; lia). lia.
Qed.
Lemma bits_u : forall w v x, 0 <= w -> 0 <= v < 2 ^ w -> w <= x -> Z.testbit v x = false.
Proof. intros w v x W V X. apply (uint_bits_high w); [lia| |lia]. unfold in_uint. lia. Qed.

Section Proofs.
Variable S : Z.
Variable vars : nat -> Z.
Variable ints : nat -> Z.
Hypothesis Ssz : S = 32 \/ S = 64.
Notation has := (has S vars ints).
Notation bits := (bits S vars ints).
Notation legal := (legal S vars ints).
Notation clean := (clean S vars ints).
Notation cev := (cev vars ints).
Notation build := (build (S / 8)).

Lemma S8 : 8 * (S / 8) = S. Proof. destruct Ssz as [-> | ->]; reflexivity. Qed.
(** The equations of the specification. *)
Lemma neg_eq : forall a, bits (SNeg a) = (if is_const a then Z.max S (bits a) else bits a) /\
  forall x, has (SNeg a) x = (0 <=? x) && (x <? bits (SNeg a)) && negb (has a x).
Proof. intro a. unfold SetExprSpec.bits, SetExprSpec.has. cbn [sem]. destruct (sem S vars ints a) as [p w]. cbn. split; reflexivity. Qed.
Lemma bin_eq : forall op a b, bits (SBin op a b) = (if is_const a && is_const b then (if existsb (has (SBin op a b)) upper then 64 else 32) else Z.max (bits a) (bits b)) /\
  forall x, has (SBin op a b) x = apply_op op (has a x) (has b x).
Proof. intros op a b. unfold SetExprSpec.bits, SetExprSpec.has. cbn [sem]. destruct (sem S vars ints a) as [p v]. destruct (sem S vars ints b) as [q w]. cbn. split; reflexivity. Qed.

Lemma bits_cases : forall e, legal e -> bits e = 32 \/ bits e = 64.
Proof.
  induction e as [i w| |e|a b|a IH|op a IHa b IHb]; intro L.
  - exact (proj1 L).
  - exact Ssz.
  - unfold SetExprSpec.bits. cbn. destruct (const_elt e); [destruct (val ints e <? 32); auto | exact Ssz].
  - exact Ssz.
  - rewrite (proj1 (neg_eq a)). specialize (IH L). destruct (is_const a); [|exact IH]. destruct Ssz, IH; lia.
  - rewrite (proj1 (bin_eq op a b)). destruct L as [La Lb]. specialize (IHa La). specialize (IHb Lb).
    destruct (is_const a && is_const b); [destruct (existsb _ _); auto|]. destruct IHa, IHb; lia.
Qed.
Lemma has_range : forall e, legal e -> clean e -> forall x, has e x = true -> 0 <= x < bits e.
Proof.
  induction e as [i w| |e|a b|a IH|op a IHa b IHb]; intros L C x H.
  - destruct L as [W V]. unfold SetExprSpec.has in H. cbn [sem fst] in H. unfold SetExprSpec.bits. cbn [sem snd].
    assert (0 <= w) by lia. destruct (Z.lt_ge_cases x 0) as [N|N]; [rewrite Z.testbit_neg_r in H by lia; discriminate|].
    destruct (Z.lt_ge_cases x w) as [N2|N2]; [lia|]. rewrite (bits_u w) in H by lia. discriminate.
  - discriminate.
  - unfold SetExprSpec.has in H. cbn [sem fst] in H. unfold SetExprSpec.bits. cbn [sem snd]. cbn [SetExprSpec.legal] in L.
    apply Z.eqb_eq in H. subst x. destruct (const_elt e); [|lia]. destruct (Z.ltb_spec (val ints e) 32); lia.
  - unfold SetExprSpec.has in H. cbn [sem fst] in H. unfold SetExprSpec.bits. cbn [sem snd]. destruct L as (La & Lb & _).
    apply andb_prop in H. destruct H as [H1 H2]. apply Z.leb_le in H1. apply Z.leb_le in H2. lia.
  - rewrite (proj2 (neg_eq a)) in H. apply andb_prop in H. destruct H as [H _]. apply andb_prop in H. destruct H as [H1 H2]. apply Z.leb_le in H1. apply Z.ltb_lt in H2. lia.
  - destruct L as [La Lb]. destruct C as (Ca & Cb & _). rewrite (proj1 (bin_eq op a b)).
    assert (0 <= x < Z.max (bits a) (bits b)) as R.
    { rewrite (proj2 (bin_eq op a b)) in H. specialize (IHa La Ca x). specialize (IHb Lb Cb x).
      destruct (has a x); [specialize (IHa eq_refl); lia|]. destruct (has b x); [specialize (IHb eq_refl); lia|]. destruct op; discriminate. }
    destruct (is_const a && is_const b); [|exact R].
    destruct (existsb (has (SBin op a b)) upper) eqn:E.
    + destruct (bits_cases a La), (bits_cases b Lb); lia.
    + split; [lia|]. destruct (Z.lt_ge_cases x 32) as [N|N]; [lia|]. exfalso.
      assert (existsb (has (SBin op a b)) upper = true); [|congruence]. apply existsb_exists. exists x. split; [|exact H]. apply upper_in.
      destruct (bits_cases a La), (bits_cases b Lb); lia.
Qed.

(** What the compiler builds. *)
Definition good (e : source) (n : node) : Prop :=
  8 * size n = bits e /\
  if is_const e
  then exists v, n = NConst v (size n) /\ 0 <= v < 2 ^ 64 /\ (forall x, 0 <= x < 64 -> Z.testbit v x = has e x)
  else const_of n = None /\ exists t v, cev n = Ok (t, v) /\ (t = U32 /\ bits e = 32 \/ (t = I64 \/ t = U64) /\ bits e = 64) /\
    in_ty t v /\ (forall x, 0 <= x < bits e -> Z.testbit v x = has e x).

Lemma const_small : forall e v, legal e -> clean e -> 0 <= v < 2 ^ 64 -> (forall x, 0 <= x < 64 -> Z.testbit v x = has e x) -> 0 <= v < 2 ^ bits e.
Proof.
  intros e v L C V B. split; [lia|]. apply lt_pow_bits; [destruct (bits_cases e L); lia|lia|].
  intros x X. rewrite B by (destruct (bits_cases e L); lia). destruct (has e x) eqn:E; [|reflexivity]. apply has_range in E; [lia|exact L|exact C].
Qed.

(** An operand brought to [N] bits. *)
Definition brought (n : node) (N : Z) : node := if 8 * size n =? N then n else Convert n (N / 8).
Lemma operand : forall e n N, good e n -> legal e -> clean e -> bits e <= N -> N = 32 \/ N = 64 ->
  8 * size (brought n N) = N /\ exists t v, cev (brought n N) = Ok (t, v) /\ in_ty t v /\ (forall x, 0 <= x < N -> Z.testbit v x = has e x) /\
    if is_const e then const_of (brought n N) = Some v /\ t = literal_type v /\ 0 <= v < 2 ^ N
    else const_of (brought n N) = None /\ (t = U32 /\ N = 32 \/ (t = I64 \/ t = U64) /\ N = 64).
Proof.
  intros e n N [G1 G2] L C M NN. destruct (is_const e) eqn:K.
  - destruct G2 as (v & -> & V & B). pose proof (const_small e v L C V B) as Vs. cbn [size] in G1.
    assert (Vn : 0 <= v < 2 ^ N) by (split; [lia|]; apply Z.lt_le_trans with (2 ^ bits e); [lia|]; apply Z.pow_le_mono_r; lia).
    assert (X : exists s, brought (NConst v (size n)) N = NConst v s /\ 8 * s = N).
    { unfold brought. cbn [size]. destruct (Z.eqb_spec (8 * size n) N) as [E|E]; [exists (size n); auto|]. cbn [Convert]. exists (N / 8). split; [reflexivity|]. destruct NN as [-> | ->]; reflexivity. }
    destruct X as (s & -> & Hs). cbn [size const_of SetExprModel.cev]. split; [exact Hs|]. exists (literal_type v), v. repeat split; auto; try lia.
    + apply literal_in. lia.
    + intros x Hx. apply B. lia.
  - destruct G2 as (K2 & t & v & EV & T & IT & B). unfold brought. destruct (Z.eqb_spec (8 * size n) N) as [E|E].
    + split; [exact E|]. exists t, v. repeat split; auto; [|].
      * intros x Hx. apply B. lia.
      * destruct T as [[-> T] | [T1 T2]]; [left; split; [reflexivity|lia] | right; split; [exact T1|lia]].
    + assert (N = 64 /\ bits e = 32) as [-> B32] by (destruct (bits_cases e L), NN; lia).
      destruct T as [[-> _] | [_ T]]; [|lia].
      replace (Convert n (64 / 8)) with (NConv n 8) by (destruct n; try discriminate K2; reflexivity).
      split; [reflexivity|]. exists I64, v. assert (size n = 4) as S4 by lia.
      repeat split; auto.
      * cbn [SetExprModel.cev]. rewrite EV. cbn [bind]. rewrite S4. change (negb (4 =? 8) && ((4 >? 4) || negb (8 =? 4))) with true. cbv iota. change (8 =? 4) with false. cbv iota.
        rewrite wrap_s_id; [reflexivity|lia|]. cbn [in_ty] in IT. unfold in_uint in IT. change (2 ^ 32) with 4294967296 in IT. unfold in_int, min_int, max_int. change (2 ^ (64 - 1)) with 9223372036854775808. lia.
      * cbn [in_ty] in *. unfold in_uint in IT. change (2 ^ 32) with 4294967296 in IT. unfold in_int, min_int. change (2 ^ (64 - 1)) with 9223372036854775808. lia.
      * cbn [in_ty] in *. unfold in_uint in IT. change (2 ^ 32) with 4294967296 in IT. unfold max_int. change (2 ^ (64 - 1)) with 9223372036854775808. lia.
      * intros x Hx. destruct (Z.lt_ge_cases x 32) as [N3|N3]; [apply B; lia|].
        cbn [in_ty] in IT. unfold in_uint in IT. rewrite (bits_u 32) by lia. symmetry. destruct (has e x) eqn:HE; [|reflexivity]. apply has_range in HE; auto; lia.
Qed.
Lemma unify_brought : forall z y N, N = Z.max (8 * size z) (8 * size y) -> (size z = 4 \/ size z = 8) -> (size y = 4 \/ size y = 8) -> unify z y = (brought z N, brought y N).
Proof.
  intros z y N -> [A|A] [B|B]; unfold unify, brought; rewrite A, B; reflexivity.
Qed.
Lemma common_types : forall N ta tb (ca cb : bool), N = 32 \/ N = 64 -> (ca && cb = false) ->
  (if ca then (exists v, ta = literal_type v /\ 0 <= v < 2 ^ N) else (ta = U32 /\ N = 32 \/ (ta = I64 \/ ta = U64) /\ N = 64)) ->
  (if cb then (exists v, tb = literal_type v /\ 0 <= v < 2 ^ N) else (tb = U32 /\ N = 32 \/ (tb = I64 \/ tb = U64) /\ N = 64)) ->
  (common ta tb = U32 /\ N = 32 \/ (common ta tb = I64 \/ common ta tb = U64) /\ N = 64) /\ wide (common ta tb) = N.
Proof.
  intros N ta tb ca cb NN NC A B.
  assert (X : common ta tb = U32 /\ N = 32 \/ (common ta tb = I64 \/ common ta tb = U64) /\ N = 64).
  { assert (Lit : forall v, N = 32 -> 0 <= v < 2 ^ N -> literal_type v = I32 \/ literal_type v = U32).
    { intros v -> V. unfold literal_type. change (2 ^ 32) with 4294967296 in *. destruct (v <? 2 ^ 31); [auto|]. rewrite (proj2 (Z.ltb_lt v 4294967296)) by lia. auto. }
    destruct ca, cb; try discriminate.
    - destruct A as (v & -> & V). destruct B as [[-> B] | [[-> | ->] B]].
      + left. split; [|exact B]. destruct (Lit v B V) as [-> | ->]; reflexivity.
      + right. split; [|exact B]. destruct (literal_type v); cbn; auto.
      + right. split; [|exact B]. destruct (literal_type v); cbn; auto.
    - destruct B as (v & -> & V). destruct A as [[-> B] | [[-> | ->] B]].
      + left. split; [|exact B]. destruct (Lit v B V) as [-> | ->]; reflexivity.
      + right. split; [|exact B]. destruct (literal_type v); cbn; auto.
      + right. split; [|exact B]. destruct (literal_type v); cbn; auto.
    - destruct A as [[-> A] | [[-> | ->] A]]; destruct B as [[-> B] | [[-> | ->] B]]; try lia; cbn; auto. }
  split; [exact X|]. destruct X as [[-> ->] | [[-> | ->] ->]]; reflexivity.
Qed.

Lemma c_not_bits : forall t v x, 0 <= x < wide t -> Z.testbit (c_not t v) x = negb (Z.testbit v x).
Proof. intros t v x H. unfold c_not. rewrite cvt_bits by lia. apply Z.lnot_spec. lia. Qed.
(** The complement of a literal as a 64-bit operand. *)
Lemma c_not_literal : forall v x, 0 <= v < 2 ^ 64 -> 0 <= x < 64 -> v < 2 ^ 31 \/ 2 ^ 32 <= v -> Z.testbit (c_not (literal_type v) v) x = negb (Z.testbit v x).
Proof.
  intros v x V X D. unfold literal_type. change (2 ^ 31) with 2147483648 in *. change (2 ^ 32) with 4294967296 in *. change (2 ^ 64) with 18446744073709551616 in V.
  destruct (Z.ltb_spec v 2147483648).
  - unfold c_not. cbn [cvt]. rewrite wrap_s_id; [apply Z.lnot_spec; lia|lia|]. unfold in_int, min_int, max_int, Z.lnot. change (2 ^ (32 - 1)) with 2147483648. lia.
  - destruct (Z.ltb_spec v 4294967296); [lia|]. change (2 ^ 63) with 9223372036854775808. destruct (Z.ltb_spec v 9223372036854775808); apply c_not_bits; cbn [wide]; lia.
Qed.

Lemma good_var : forall i w, legal (SVar i w) -> good (SVar i w) (NVar i (w / 8)).
Proof.
  intros i w [W V]. split; [destruct W as [-> | ->]; reflexivity|]. cbn [is_const]. split; [reflexivity|].
  exists (set_type (w / 8)), (vars i). split; [reflexivity|]. destruct W as [-> | ->].
  - split; [left; split; reflexivity|]. split; [exact V|reflexivity].
  - split; [right; split; [right|]; reflexivity|]. split; [exact V|reflexivity].
Qed.
Lemma typed_S : (set_type (S / 8) = U32 /\ S = 32 \/ (set_type (S / 8) = I64 \/ set_type (S / 8) = U64) /\ S = 64) /\ forall v, in_uint S v -> in_ty (set_type (S / 8)) v.
Proof. destruct Ssz as [-> | ->]; (split; [auto|]); intros v H; exact H. Qed.
Lemma good_elem : forall e, legal (SElem e) -> exists n, SetElem (S / 8) e = Some n /\ good (SElem e) n.
Proof.
  intros [k|i] L; cbn [SetExprSpec.legal const_elt val] in L.
  - cbn [SetElem]. rewrite (proj2 (Z.leb_le 0 k)), (proj2 (Z.leb_le k 63)) by lia. cbn [andb]. eexists. split; [reflexivity|].
    assert (P : 0 <= Z.shiftl 1 k < 2 ^ 64).
    { rewrite Z.shiftl_1_l. split; [apply Z.pow_nonneg; lia|]. apply Z.pow_lt_mono_r; lia. }
    split.
    + cbn [size]. unfold SetExprSpec.bits. cbn [sem snd const_elt val]. rewrite SetSetType_iff by lia. rewrite Z.shiftl_1_l.
      destruct (Z.ltb_spec (2 ^ k) (2 ^ 32)) as [X|X]; destruct (Z.ltb_spec k 32) as [Y|Y]; try reflexivity; exfalso.
      * assert (2 ^ 32 <= 2 ^ k) by (apply Z.pow_le_mono_r; lia). lia.
      * assert (2 ^ k < 2 ^ 32) by (apply Z.pow_lt_mono_r; lia). lia.
    + cbn [is_const const_elt]. exists (Z.shiftl 1 k). split; [reflexivity|]. split; [exact P|]. intros x X. unfold SetExprSpec.has. cbn [sem fst val].
      rewrite Z.shiftl_1_l, Z.pow2_bits_eqb by lia. apply Z.eqb_sym.
  - cbn [SetElem]. eexists. split; [reflexivity|]. split; [cbn [size]; rewrite S8; reflexivity|]. cbn [is_const const_elt]. split; [reflexivity|].
    destruct (SETOF_bits (ints i) S ltac:(lia) L) as (v & EV & R & B).
    exists (set_type (S / 8)), v. cbn [SetExprModel.cev]. rewrite S8, EV. split; [reflexivity|]. destruct typed_S as [T1 T2]. split; [exact T1|]. split; [exact (T2 v R)|].
    intros x X. unfold SetExprSpec.has, SetExprSpec.bits in *. cbn [sem fst snd const_elt val] in *. rewrite B by lia. reflexivity.
Qed.
Lemma good_range : forall a b, legal (SRange a b) -> clean (SRange a b) -> exists n, SetRange (S / 8) a b = Ok (Some n) /\ good (SRange a b) n.
Proof.
  intros a b (La & Lb & Lc) C. cbn [SetExprSpec.clean] in C. unfold SetRange.
  assert (elt_const_ok a && elt_const_ok b = true) as ->.
  { destruct a as [k|i], b as [l|j]; cbn [elt_const_ok val] in *; rewrite ?andb_true_r; cbn [andb]; repeat (apply andb_true_intro; split); try apply Z.leb_le; try lia; reflexivity. }
  destruct (const_elt a && const_elt b) eqn:K.
  - specialize (Lc eq_refl). specialize (C eq_refl). destruct a as [k|i]; [|discriminate]. destruct b as [l|j]; [|discriminate]. cbn [val] in *.
    rewrite (proj2 (Z.leb_le k l)) by lia. destruct (SETRNG_bits k l 32 ltac:(lia) ltac:(lia) ltac:(lia)) as (v & EV & R & B). rewrite EV. cbn [bind].
    eexists. split; [reflexivity|]. split; [cbn [size]; rewrite S8; reflexivity|]. cbn [is_const const_elt andb]. exists v. split; [reflexivity|].
    unfold in_uint in R. change (2 ^ 32) with 4294967296 in *. change (2 ^ 64) with 18446744073709551616. split; [lia|]. intros x X. unfold SetExprSpec.has. cbn [sem fst val].
    rewrite B by lia. reflexivity.
  - assert (X : match a, b with EConst k, EConst l => if k <=? l then let* v := SETRNG k l 32 in Ok (Some (NConst v (S / 8))) else Ok None | _, _ => Ok (Some (NUpto a b (S / 8))) end
                = Ok (Some (NUpto a b (S / 8)))) by (destruct a, b; try reflexivity; discriminate).
    rewrite X. eexists. split; [reflexivity|]. split; [cbn [size]; rewrite S8; reflexivity|]. cbn [is_const]. rewrite K. split; [reflexivity|].
    destruct (SETRNG_bits (val ints a) (val ints b) S ltac:(lia) La Lb) as (v & EV & R & B).
    exists (set_type (S / 8)), v. cbn [SetExprModel.cev]. rewrite S8, EV. split; [reflexivity|]. destruct typed_S as [T1 T2]. split; [exact T1|]. split; [exact (T2 v R)|].
    intros x Hx. unfold SetExprSpec.has, SetExprSpec.bits in *. cbn [sem fst snd] in *. rewrite B by lia. reflexivity.
Qed.
Lemma good_neg : forall a n, good a n -> legal a -> clean (SNeg a) -> good (SNeg a) (Neg n).
Proof.
  intros a n [G1 G2] L [Ca Cb]. destruct (neg_eq a) as [Eb Eh]. cbn [is_const] in *. unfold good. cbn [is_const]. pose proof (bits_cases a L) as BC.
  destruct (is_const a) eqn:K.
  - specialize (Cb eq_refl). destruct G2 as (v & Hn & V & B). pose proof (const_small a v L Ca V B) as Vs.
    assert (bits (SNeg a) = bits a) as BB by lia. rewrite Hn. cbn [Neg size]. rewrite Hn in G1. cbn [size] in G1. destruct (Z.eqb_spec (size n) 8) as [E|E].
    + split; [cbn [size]; lia|]. exists (set_compl 64 v). split; [reflexivity|]. split; [unfold set_compl; pose proof (wrap_u_range 64 (Z.lnot v) ltac:(lia)) as R; unfold in_uint in R; lia|].
      intros x X. rewrite set_compl_bits by lia. rewrite Eh, BB, B by lia. replace (bits a) with 64 by lia.
      rewrite (proj2 (Z.leb_le 0 x)) by lia. reflexivity.
    + split; [cbn [size]; lia|]. assert (bits a = 32) as B32 by lia. rewrite B32 in Vs.
      assert (Hx : forall x, 0 <= x -> Z.testbit (Z.lxor v (2 ^ 32 - 1)) x = xorb (Z.testbit v x) (x <? 32)).
      { intros x X. rewrite Z.lxor_spec. f_equal. change (2 ^ 32 - 1) with (all_ones 32). apply all_ones_bits; lia. }
      assert (in_uint 32 (Z.lxor v (2 ^ 32 - 1))) as U.
      { apply bits_range; try lia; [apply Z.lxor_nonneg; split; intros; change (2 ^ 32) with 4294967296; lia|]. intros x X. rewrite Hx by lia. rewrite (bits_u 32) by lia.
        rewrite (proj2 (Z.ltb_ge x 32)) by lia. reflexivity. }
      unfold in_uint in U. exists (Z.lxor v (2 ^ 32 - 1)). split; [reflexivity|].
      split. { assert (2 ^ 32 < 2 ^ 64) by reflexivity. lia. }
      intros x X. rewrite Hx by lia. rewrite Eh, BB, B32. rewrite (proj2 (Z.leb_le 0 x)) by lia. cbn [andb].
      destruct (Z.ltb_spec x 32) as [N|N]; cbn [andb].
      * rewrite B by lia. destruct (has a x); reflexivity.
      * rewrite (bits_u 32) by lia. reflexivity.
  - destruct G2 as (K2 & t & v & EV & T & IT & B).
    assert (Neg n = NNeg n (size n)) as -> by (destruct n; try discriminate; reflexivity).
    rewrite Eb. split; [exact G1|]. split; [reflexivity|]. exists t, (c_not t v). split; [cbn [SetExprModel.cev]; rewrite EV; reflexivity|]. split; [exact T|].
    split; [apply cvt_in|]. intros x X.
    assert (wide t = bits a) as W by (destruct T as [[-> ->] | [[-> | ->] ->]]; reflexivity).
    rewrite c_not_bits by lia. rewrite Eh, Eb, B by lia. rewrite (proj2 (Z.leb_le 0 x)), (proj2 (Z.ltb_lt x (bits a))) by lia. reflexivity.
Qed.
Lemma op_bits : forall op x v i, 0 <= i < 64 -> Z.testbit (ConstOp op x v) i = apply_op op (Z.testbit x i) (Z.testbit v i).
Proof.
  intros op x v i I. destruct op; cbn [ConstOp apply_op]; unfold set_plus, set_minus, set_times, set_slash.
  - apply Z.lor_spec.
  - rewrite Z.land_spec, set_compl_bits by lia. rewrite (proj2 (Z.ltb_lt i 64)) by lia. reflexivity.
  - apply Z.land_spec.
  - apply Z.lxor_spec.
Qed.
Lemma ConstOp_range : forall op x v, 0 <= x < 2 ^ 64 -> 0 <= v < 2 ^ 64 -> 0 <= ConstOp op x v < 2 ^ 64.
Proof.
  intros op x v X V. destruct (set_ops_range 64 x v ltac:(lia)) as (A & B & C & D & _); [unfold in_uint; lia|unfold in_uint; lia|].
  unfold in_uint in *. destruct op; cbn [ConstOp]; assumption.
Qed.
Lemma good_bin : forall op a b z y, good a z -> good b y -> legal (SBin op a b) -> clean (SBin op a b) -> good (SBin op a b) (Op op z y).
Proof.
  intros op a b z y Ga Gb [La Lb] (Ca & Cb & Cm). destruct (bin_eq op a b) as [Eb Eh].
  pose proof (bits_cases a La) as BCa. pose proof (bits_cases b Lb) as BCb.
  destruct (is_const a && is_const b) eqn:K.
  - (* both constant *)
    apply andb_prop in K. destruct K as [Ka Kb]. destruct Ga as [Ga1 Ga2]. destruct Gb as [Gb1 Gb2]. rewrite Ka in Ga2. rewrite Kb in Gb2.
    destruct Ga2 as (x & Hz & X & Bx). destruct Gb2 as (v & Hy & V & Bv). rewrite Hz, Hy. unfold Op. cbn [const_of].
    pose proof (ConstOp_range op x v X V) as R.
    assert (HB : forall i, 0 <= i < 64 -> Z.testbit (ConstOp op x v) i = has (SBin op a b) i) by (intros i I; rewrite op_bits, Eh, Bx, Bv by lia; reflexivity).
    split.
    + cbn [size]. rewrite Eb, SetSetType_iff by lia. destruct (existsb (has (SBin op a b)) upper) eqn:E.
      * apply existsb_exists in E. destruct E as (i & I & HI). apply upper_in in I. destruct (Z.ltb_spec (ConstOp op x v) (2 ^ 32)) as [N|N]; [|reflexivity].
        exfalso. rewrite <- HB in HI by lia. rewrite (bits_u 32) in HI by lia. discriminate.
      * rewrite (proj2 (Z.ltb_lt (ConstOp op x v) (2 ^ 32))); [reflexivity|]. apply lt_pow_bits; try lia. intros i I. rewrite HB by lia.
        destruct (has (SBin op a b) i) eqn:HI; [|reflexivity]. assert (existsb (has (SBin op a b)) upper = true); [|congruence]. apply existsb_exists. exists i. split; [apply upper_in; lia|exact HI].
    + cbn [is_const]. rewrite Ka, Kb. cbn [andb]. exists (ConstOp op x v). split; [reflexivity|]. split; [exact R|exact HB].
  - set (N := Z.max (bits a) (bits b)) in *.
    assert (NN : N = 32 \/ N = 64) by (unfold N; lia).
    destruct (operand a z N Ga La Ca ltac:(unfold N; lia) NN) as (Sz & ta & x & EVa & ITa & Ba & Pa).
    destruct (operand b y N Gb Lb Cb ltac:(unfold N; lia) NN) as (Sy & tb & v & EVb & ITb & Bb & Pb).
    assert (Hop : Op op z y = NBin op (brought z N) (brought y N) (size (brought z N))).
    { unfold Op. destruct Ga as [Ga1 Ga2], Gb as [Gb1 Gb2].
      rewrite (unify_brought z y N) by (rewrite ?Ga1, ?Gb1; unfold N; lia).
      destruct (is_const a); [|destruct Ga2 as [-> _]; destruct (const_of z); reflexivity].
      destruct (is_const b); [discriminate|]. destruct Gb2 as [-> _]. destruct (const_of z); reflexivity. }
    rewrite Hop. split; [cbn [size]; lia|]. cbn [is_const]. rewrite K. split; [reflexivity|].
    destruct (common_types N ta tb (is_const a) (is_const b) NN K) as [T W].
    { destruct (is_const a); [|exact (proj2 Pa)]. exists x. exact (proj2 Pa). }
    { destruct (is_const b); [|exact (proj2 Pb)]. exists v. exact (proj2 Pb). }
    set (t := common ta tb) in *. set (v' := match op with SMinus => c_not tb v | _ => v end).
    exists t, (cvt t (c_op op (cvt t x) (cvt t v'))). split; [cbn [SetExprModel.cev]; rewrite EVa, EVb; cbn [bind]; reflexivity|].
    rewrite Eb. split; [exact T|]. split; [apply cvt_in|]. intros i I. rewrite Eh.
    assert (Hv' : Z.testbit v' i = match op with SMinus => negb (has b i) | _ => has b i end).
    { unfold v'. destruct op; try (apply Bb; lia). rewrite <- Bb by lia. destruct (is_const b) eqn:Kb.
      - destruct Pb as (_ & Ht & V). rewrite Ht. destruct NN as [N32|N64].
        + rewrite N32 in V. unfold literal_type. change (2 ^ 32) with 4294967296 in *. destruct (v <? 2 ^ 31); [apply c_not_bits; cbn [wide]; lia|].
          rewrite (proj2 (Z.ltb_lt v 4294967296)) by lia. apply c_not_bits; cbn [wide]; lia.
        + rewrite N64 in V. apply c_not_literal; try lia. destruct (Z.lt_ge_cases v (2 ^ 31)) as [|V1]; [auto|]. destruct (Z.lt_ge_cases v (2 ^ 32)) as [V2|]; [|auto]. exfalso.
          specialize (Cm eq_refl eq_refl). fold N in Cm. destruct Cm as [Cm|Cm]; [| |lia|rewrite Cm in K; discriminate].
          * rewrite <- Bb by lia. apply Z.testbit_true; [lia|]. change (2 ^ 31) with 2147483648 in *. change (2 ^ 32) with 4294967296 in *.
            assert (v / 2147483648 = 1) as -> by (symmetry; apply Z.div_unique with (v - 2147483648); lia). reflexivity.
          * destruct (existsb (has b) upper) eqn:E; [|reflexivity]. apply existsb_exists in E. destruct E as (k & Hk & HE). apply upper_in in Hk. rewrite <- Bb in HE by lia.
            rewrite (bits_u 32) in HE by lia. discriminate.
      - destruct Pb as (_ & [[-> PN] | [[-> | ->] PN]]); apply c_not_bits; cbn [wide]; lia. }
    rewrite cvt_bits by lia. assert (Ba' := Ba i ltac:(lia)).
    destruct op; cbn [c_op apply_op]; rewrite ?Z.lor_spec, ?Z.land_spec, ?Z.lxor_spec; rewrite !cvt_bits by lia; rewrite Ba', Hv'; reflexivity.
Qed.
Lemma built : forall e, legal e -> clean e -> exists n, build e = Ok (Some n) /\ good e n.
Proof.
  induction e as [i w| |e|a b|a IH|op a IHa b IHb]; intros L C; cbn [SetExprModel.build].
  - eexists. split; [reflexivity|]. apply good_var. exact L.
  - eexists. split; [reflexivity|]. split; [cbn [size]; rewrite S8; reflexivity|]. cbn [is_const]. exists 0. split; [reflexivity|]. split; [lia|]. intros x _. apply Z.testbit_0_l.
  - destruct (good_elem e L) as (n & -> & G). eauto.
  - apply good_range; assumption.
  - destruct (IH L (proj1 C)) as (n & -> & G). cbn [bind]. eexists. split; [reflexivity|]. apply good_neg; assumption.
  - destruct (IHa (proj1 L) (proj1 C)) as (z & -> & Ga). destruct (IHb (proj2 L) (proj1 (proj2 C))) as (y & -> & Gb). cbn [bind]. eexists. split; [reflexivity|]. apply good_bin; assumption.
Qed.
End Proofs.

(** * Theorems *)

(** An expression that follows the rules of the language, and keeps clear of the three weak spots below, is accepted, and the C written for it computes exactly the set
    it denotes, without undefined behaviour, for either size of SET. *)
Theorem C71_value : forall S vars ints e, S = 32 \/ S = 64 -> legal S vars ints e -> clean S vars ints e ->
  exists n t v, build (S / 8) e = Ok (Some n) /\ cev vars ints n = Ok (t, v) /\ 8 * size n = bits S vars ints e /\
    forall x, 0 <= x < bits S vars ints e -> Z.testbit v x = has S vars ints e x.
Proof.
  intros S vars ints e HS L C. destruct (built S vars ints HS e L C) as (n & EB & G).
  destruct (operand S vars ints HS e n (bits S vars ints e) G L C ltac:(lia) (bits_cases S vars ints HS e L)) as (_ & t & v & EV & _ & B & _).
  exists n, t, v. split; [exact EB|]. unfold brought in EV. destruct G as [G1 _]. rewrite G1, Z.eqb_refl in EV. split; [exact EV|]. split; [exact G1|exact B].
Qed.
Print Assumptions C71_value.

(** Assignment: a variable of sufficient size holds exactly the set afterwards; a smaller one is rejected. *)
Theorem C71_assign : forall S vars ints e w, S = 32 \/ S = 64 -> legal S vars ints e -> clean S vars ints e -> w = 32 \/ w = 64 ->
  exists n, build (S / 8) e = Ok (Some n) /\
    (bits S vars ints e <= w -> exists word, Assign vars ints w n = Ok (Some word) /\ 0 <= word < 2 ^ w /\ forall x, 0 <= x -> Z.testbit word x = has S vars ints e x) /\
    (w < bits S vars ints e -> Assign vars ints w n = Ok None).
Proof.
  intros S vars ints e w HS L C HW. destruct (built S vars ints HS e L C) as (n & EB & G). pose proof (bits_cases S vars ints HS e L) as BC.
  exists n. split; [exact EB|]. assert (G1 := proj1 G). unfold Assign.
  assert (W8 : w / 8 = w / 8) by reflexivity. split; intro M.
  - destruct (operand S vars ints HS e n (bits S vars ints e) G L C ltac:(lia) BC) as (_ & t & v & EV & IT & B & P).
    unfold brought in EV. rewrite G1, Z.eqb_refl in EV. rewrite EV. cbn [bind].
    replace (w / 8 <? size n) with false by (symmetry; apply Z.ltb_ge; destruct HW as [-> | ->]; cbn; lia).
    exists (wrap_u w v). split; [reflexivity|]. split; [pose proof (wrap_u_range w v ltac:(lia)) as R; unfold in_uint in R; lia|].
    intros x X. rewrite testbit_wrap_u by lia. destruct (Z.ltb_spec x w) as [N|N]; cbn [andb].
    + destruct (Z.lt_ge_cases x (bits S vars ints e)) as [N2|N2]; [apply B; lia|].
      assert (0 <= v < 2 ^ 32) as V.
      { assert (bits S vars ints e = 32) as B32 by lia. rewrite B32 in P. destruct (is_const e); [exact (proj2 (proj2 P))|]. destruct P as (_ & [[-> _] | [_ P]]); [exact IT|lia]. }
      rewrite (bits_u 32) by lia. symmetry. destruct (has S vars ints e x) eqn:E; [|reflexivity]. apply has_range in E; auto; lia.
    + symmetry. destruct (has S vars ints e x) eqn:E; [|reflexivity]. apply has_range in E; auto; lia.
  - replace (w / 8 <? size n) with true; [reflexivity|]. symmetry. apply Z.ltb_lt. destruct HW as [-> | ->]; cbn; lia.
Qed.
Print Assumptions C71_assign.

(** The relations = and #, between sets of equal or different size. *)
Theorem C71_equal : forall S vars ints a b, S = 32 \/ S = 64 -> legal S vars ints a -> clean S vars ints a -> legal S vars ints b -> clean S vars ints b ->
  exists z y r, build (S / 8) a = Ok (Some z) /\ build (S / 8) b = Ok (Some y) /\ Equal vars ints z y = Ok r /\
    (r = true <-> forall x, has S vars ints a x = has S vars ints b x).
Proof.
  intros S vars ints a b HS La Ca Lb Cb. destruct (built S vars ints HS a La Ca) as (z & EBa & Ga). destruct (built S vars ints HS b Lb Cb) as (y & EBb & Gb).
  pose proof (bits_cases S vars ints HS a La) as BCa. pose proof (bits_cases S vars ints HS b Lb) as BCb.
  assert (Ext : forall N v w, bits S vars ints a <= N -> bits S vars ints b <= N -> N <= 64 -> (forall i, 0 <= i < N -> Z.testbit v i = has S vars ints a i) ->
                (forall i, 0 <= i < N -> Z.testbit w i = has S vars ints b i) ->
                ((forall i, 0 <= i < N -> Z.testbit v i = Z.testbit w i) <-> forall x, has S vars ints a x = has S vars ints b x)).
  { intros N v w HN1 HN2 HN Bv Bw. split.
    - intros H x. destruct (Z.lt_ge_cases x 0) as [X|X]; [|destruct (Z.lt_ge_cases x N) as [X2|X2]].
      + destruct (has S vars ints a x) eqn:E1; [apply has_range in E1; auto; lia|]. destruct (has S vars ints b x) eqn:E2; [apply has_range in E2; auto; lia|reflexivity].
      + rewrite <- Bv, <- Bw by lia. apply H. lia.
      + destruct (has S vars ints a x) eqn:E1; [apply has_range in E1; auto; lia|]. destruct (has S vars ints b x) eqn:E2; [apply has_range in E2; auto; lia|reflexivity].
    - intros H i I. rewrite Bv, Bw by lia. apply H. }
  exists z, y. destruct (is_const a && is_const b) eqn:K.
  - apply andb_prop in K. destruct K as [Ka Kb]. destruct Ga as [Ga1 Ga2]. destruct Gb as [Gb1 Gb2]. rewrite Ka in Ga2. rewrite Kb in Gb2.
    destruct Ga2 as (x & Hz & X & Bx). destruct Gb2 as (v & Hy & V & Bv). exists (x =? v). split; [exact EBa|]. split; [exact EBb|].
    rewrite Hz, Hy. split; [reflexivity|]. rewrite <- (Ext 64 x v) by (try assumption; lia). rewrite Z.eqb_eq. split; [intros -> ; reflexivity|].
    intro H. apply Z.bits_inj'. intros i I. destruct (Z.lt_ge_cases i 64) as [N|N]; [apply H; lia|]. rewrite !(bits_u 64) by lia. reflexivity.
  - set (N := Z.max (bits S vars ints a) (bits S vars ints b)).
    assert (NN : N = 32 \/ N = 64) by (unfold N; lia).
    destruct (operand S vars ints HS a z N Ga La Ca ltac:(unfold N; lia) NN) as (Sz & ta & x & EVa & ITa & Ba & Pa).
    destruct (operand S vars ints HS b y N Gb Lb Cb ltac:(unfold N; lia) NN) as (Sy & tb & v & EVb & ITb & Bb & Pb).
    destruct (common_types N ta tb (is_const a) (is_const b) NN K) as [T W].
    { destruct (is_const a); [|exact (proj2 Pa)]. exists x. exact (proj2 Pa). }
    { destruct (is_const b); [|exact (proj2 Pb)]. exists v. exact (proj2 Pb). }
    exists (cvt (common ta tb) x =? cvt (common ta tb) v). split; [exact EBa|]. split; [exact EBb|]. split.
    + unfold Equal. rewrite (unify_brought z y N) by (destruct Ga as [Ga1 _], Gb as [Gb1 _]; rewrite ?Ga1, ?Gb1; unfold N; lia).
      destruct Ga as [_ Ga2], Gb as [_ Gb2].
      assert (H : match const_of z, const_of y with Some p, Some q => Ok (p =? q) | _, _ => let* (ta, x) := cev vars ints (brought z N) in let* (tb, v) := cev vars ints (brought y N) in
                    let t := common ta tb in Ok (cvt t x =? cvt t v) end = let* (ta, x) := cev vars ints (brought z N) in let* (tb, v) := cev vars ints (brought y N) in
                    let t := common ta tb in Ok (cvt t x =? cvt t v)).
      { destruct (is_const a); [|destruct Ga2 as [-> _]; destruct (const_of z); reflexivity]. destruct (is_const b); [discriminate|]. destruct Gb2 as [-> _]. destruct (const_of z); reflexivity. }
      refine (eq_trans H _). rewrite EVa, EVb. reflexivity.
    + rewrite <- (Ext N x v) by (try assumption; unfold N; lia). rewrite Z.eqb_eq. split.
      * intros H i I. rewrite <- (cvt_bits (common ta tb) x i), <- (cvt_bits (common ta tb) v i) by lia. rewrite H. reflexivity.
      * intro H. assert (H2 : forall i, 0 <= i < wide (common ta tb) -> Z.testbit (cvt (common ta tb) x) i = Z.testbit (cvt (common ta tb) v) i).
        { intros i I. rewrite !cvt_bits by lia. apply H. lia. }
        pose proof (cvt_in (common ta tb) x) as I1. pose proof (cvt_in (common ta tb) v) as I2.
        destruct T as [[T _] | [[T|T] _]]; rewrite T in *; cbn [in_ty wide] in *.
        -- apply Z.bits_inj'. intros i I. destruct (Z.lt_ge_cases i 32) as [M|M]; [apply H2; lia|]. rewrite !(bits_u 32) by (assumption || lia). reflexivity.
        -- apply (in_int_bits_inj 64); auto; lia.
        -- apply Z.bits_inj'. intros i I. destruct (Z.lt_ge_cases i 64) as [M|M]; [apply H2; lia|]. rewrite !(bits_u 64) by (assumption || lia). reflexivity.
Qed.
Print Assumptions C71_equal.

(** Membership: a variable of at most 32 bits may have any value, a constant must lie in the type of the set. *)
Theorem C71_in : forall S vars ints e x, S = 32 \/ S = 64 -> legal S vars ints e -> clean S vars ints e -> in_int 32 (val ints x) ->
  exists n, build (S / 8) e = Ok (Some n) /\
    (const_elt x = false \/ 0 <= val ints x < bits S vars ints e -> In_ vars ints x n = Ok (Some (has S vars ints e (val ints x)))) /\
    (const_elt x = true -> ~ 0 <= val ints x < bits S vars ints e -> In_ vars ints x n = Ok None).
Proof.
  intros S vars ints e x HS L C HX. destruct (built S vars ints HS e L C) as (n & EB & G). pose proof (bits_cases S vars ints HS e L) as BC.
  exists n. split; [exact EB|]. assert (G1 := proj1 G).
  destruct (operand S vars ints HS e n (bits S vars ints e) G L C ltac:(lia) BC) as (_ & t & v & EV & IT & B & P).
  unfold brought in EV, P. rewrite G1, Z.eqb_refl in EV. rewrite G1, Z.eqb_refl in P. set (N := bits S vars ints e) in *.
  set (code := let* (_, v) := cev vars ints n in let* b := SET_IN (val ints x) (if size n =? 4 then wrap_u 32 v else wrap_u 64 v) (8 * size n) in Ok (Some b)).
  assert (Code : code = Ok (Some (has S vars ints e (val ints x)))).
  { unfold code. rewrite EV. cbn [bind]. rewrite G1.
    assert ((if size n =? 4 then wrap_u 32 v else wrap_u 64 v) = wrap_u N v) as ->.
    { destruct BC as [E|E]; rewrite E in *; [replace (size n) with 4 by lia | replace (size n) with 8 by lia]; reflexivity. }
    rewrite (SET_IN_spec (val ints x) (wrap_u N v) N BC) by (try exact HX; apply wrap_u_range; lia). cbn [bind]. do 2 f_equal.
    destruct (Z.leb_spec 0 (val ints x)) as [M|M]; cbn [andb].
    - rewrite testbit_wrap_u by lia. destruct (Z.ltb_spec (val ints x) N) as [M2|M2]; cbn [andb]; [apply B; lia|].
      symmetry. destruct (has S vars ints e (val ints x)) eqn:E; [|reflexivity]. apply has_range in E; auto. unfold N in *. lia.
    - symmetry. destruct (has S vars ints e (val ints x)) eqn:E; [|reflexivity]. apply has_range in E; auto. unfold N in *. lia. }
  destruct x as [k|i]; cbn [val const_elt] in *.
  - split; intro M.
    + destruct M as [M|M]; [discriminate|]. unfold In_. change (let* (_, v) := cev vars ints n in let* b := SET_IN (val ints (EConst k)) (if size n =? 4 then wrap_u 32 v else wrap_u 64 v) (8 * size n) in Ok (Some b)) with code.
      assert ((k <? 0) || (k >=? size n * 8) = false) as -> by (rewrite Z.geb_leb; apply orb_false_intro; [apply Z.ltb_ge | apply Z.leb_gt]; lia).
      destruct (is_const e).
      * rewrite (proj1 P). do 2 f_equal. apply B. lia.
      * rewrite (proj1 P). exact Code.
    + intro M2. unfold In_. assert ((k <? 0) || (k >=? size n * 8) = true) as ->; [|reflexivity]. rewrite Z.geb_leb. apply orb_true_iff. rewrite Z.ltb_lt, Z.leb_le. lia.
  - split; [intros _; exact Code | discriminate].
Qed.
Print Assumptions C71_in.

(** Errors are reported only for expressions that break the rules of the language. *)
Theorem C71_rejects : forall S vars ints e, S = 32 \/ S = 64 -> build (S / 8) e = Ok None -> ~ legal S vars ints e.
Proof.
  intros S vars ints e HS. induction e as [i w| |e|a b|a IH|op a IHa b IHb]; cbn [build legal]; intros H L; try discriminate.
  - destruct e as [k|i]; [|discriminate]. cbn [SetElem const_elt val] in *. rewrite (proj2 (Z.leb_le 0 k)), (proj2 (Z.leb_le k 63)) in H by lia. discriminate.
  - destruct L as (La & Lb & Lc). unfold SetRange in H.
    assert (elt_const_ok a && elt_const_ok b = true) as X.
    { destruct a as [k|i], b as [l|j]; cbn [elt_const_ok val] in *; rewrite ?andb_true_r; cbn [andb]; repeat (apply andb_true_intro; split); try apply Z.leb_le; try lia; reflexivity. }
    rewrite X in H. destruct a as [k|i], b as [l|j]; try discriminate. cbn [val] in *. specialize (Lc eq_refl). rewrite (proj2 (Z.leb_le k l)) in H by lia.
    destruct (SETRNG k l 32); discriminate.
  - destruct (build (S / 8) a) as [[n|]| | |] eqn:E; try discriminate. exact (IH eq_refl L).
  - destruct L as [La Lb]. destruct (build (S / 8) a) as [[z|]| | |] eqn:Ea; try discriminate; destruct (build (S / 8) b) as [[y|]| | |] eqn:Eb; try discriminate;
      first [exact (IHa eq_refl La) | exact (IHb eq_refl Lb)].
Qed.
Print Assumptions C71_rejects.

(** With 32-element sets throughout nothing else has to be observed. *)
Fixpoint small (e : source) : Prop :=
  match e with
  | SVar _ w => w = 32
  | SElem (EConst k) => k < 32
  | SNeg a => small a
  | SBin _ a b => small a /\ small b
  | _ => True
  end.
Lemma small_bits : forall vars ints e, legal 32 vars ints e -> clean 32 vars ints e -> small e -> bits 32 vars ints e = 32.
Proof.
  intros vars ints e. induction e as [i w| |e|a b|a IH|op a IHa b IHb]; intros L C M; try reflexivity.
  - exact M.
  - destruct e as [k|i]; [|reflexivity]. unfold bits. cbn [sem snd const_elt val small] in *. rewrite (proj2 (Z.ltb_lt k 32)) by exact M. reflexivity.
  - rewrite (proj1 (neg_eq 32 vars ints a)). rewrite (IH L (proj1 C) M). destruct (is_const a); reflexivity.
  - destruct L as [La Lb], C as (Ca & Cb & _), M as [Ma Mb]. specialize (IHa La Ca Ma). specialize (IHb Lb Cb Mb).
    rewrite (proj1 (bin_eq 32 vars ints op a b)), IHa, IHb. destruct (is_const a && is_const b); [|reflexivity].
    destruct (existsb _ upper) eqn:E; [|reflexivity]. exfalso. apply existsb_exists in E. destruct E as (x & X & H). apply upper_in in X.
    rewrite (proj2 (bin_eq 32 vars ints op a b)) in H.
    destruct (has 32 vars ints a x) eqn:E1; [apply has_range in E1; auto; lia|]. destruct (has 32 vars ints b x) eqn:E2; [apply has_range in E2; auto; lia|]. destruct op; discriminate.
Qed.
Theorem C71_32_bits : forall vars ints e, legal 32 vars ints e -> small e -> clean 32 vars ints e /\ bits 32 vars ints e = 32.
Proof.
  intros vars ints e L M. enough (clean 32 vars ints e) by (split; [assumption|]; apply small_bits; assumption). revert L M.
  induction e as [i w| |e|a b|a IH|op a IHa b IHb]; intros L M; cbn [clean]; auto.
  - intros _. destruct L as (La & Lb & _). lia.
  - specialize (IH L M). split; [exact IH|]. intros _. rewrite small_bits by assumption. lia.
  - destruct L as [La Lb], M as [Ma Mb]. specialize (IHa La Ma). specialize (IHb Lb Mb). split; [exact IHa|]. split; [exact IHb|]. intros. left. rewrite !small_bits by assumption. reflexivity.
Qed.
Print Assumptions C71_32_bits.

(** ** Refuted *)

(** The expressions above are correct for all legal expressions: not so.  A constant with element 31 subtracted from a 64-element set removes all elements from 31 up: the
    literal 0x80000000 is an unsigned int, and so is its complement. *)
Theorem C71_minus_refuted : exists S vars ints e n t v,
  legal S vars ints e /\ build (S / 8) e = Ok (Some n) /\ cev vars ints n = Ok (t, v) /\ bits S vars ints e = 64 /\
  has S vars ints e 40 = true /\ Z.testbit v 40 = false.
Proof.
  exists 32, (fun _ => 2 ^ 40), (fun _ => 0), (SBin SMinus (SVar 0 64) (SElem (EConst 31))), (NBin SMinus (NVar 0 8) (NConst (2 ^ 31) 8) 8), U64, 0.
  split; [cbn; repeat split; try lia; auto|]. repeat split; vm_compute; reflexivity.
Qed.
Print Assumptions C71_minus_refuted.

(** With 64-element SETs the complement of a constant misses the elements from 32 up. *)
Theorem C71_complement_refuted : exists vars ints e n t v,
  legal 64 vars ints e /\ build 8 e = Ok (Some n) /\ cev vars ints n = Ok (t, v) /\ has 64 vars ints e 40 = true /\ Z.testbit v 40 = false.
Proof.
  exists (fun _ => 0), (fun _ => 0), (SNeg (SElem (EConst 0))), (NConst (2 ^ 32 - 2) 4), U32, (2 ^ 32 - 2).
  split; [cbn; lia|]. repeat split; vm_compute; reflexivity.
Qed.
Print Assumptions C71_complement_refuted.

(** A constant range with a bound above 31 is undefined behaviour in the compiler; with 64-element SETs the range is legal, with 32-element ones it should be reported. *)
Theorem C71_range_refuted : exists vars ints e, legal 64 vars ints e /\ build 8 e = UB /\ ~ legal 32 vars ints e /\ build 4 e = UB.
Proof.
  exists (fun _ => 0), (fun _ => 0), (SRange (EConst 40) (EConst 50)).
  split; [cbn; lia|]. split; [reflexivity|]. split; [|reflexivity]. cbn. lia.
Qed.
Print Assumptions C71_range_refuted.

(** * Non-vacuity *)
Module Case.
(** (s - {3, i}) + -{0..7, 31} with s = {3, 5, 20} and i = 5: the elements 8..30. *)
Definition vars (_ : nat) : Z := 2 ^ 3 + 2 ^ 5 + 2 ^ 20.
Definition ints (_ : nat) : Z := 5.
Definition e : source :=
  SBin SPlus (SBin SMinus (SVar 0 32) (SBin SPlus (SElem (EConst 3)) (SElem (EVar 0))))
             (SNeg (SBin SPlus (SRange (EConst 0) (EConst 7)) (SElem (EConst 31)))).
Example ok : legal 32 vars ints e /\ small e /\ clean 32 vars ints e.
Proof. assert (L : legal 32 vars ints e) by (cbn; unfold vars, ints; repeat split; try lia; auto). assert (M : small e) by (cbn; repeat split; lia). exact (conj L (conj M (proj1 (C71_32_bits vars ints e L M)))). Qed.
Example value : forall n, build 4 e = Ok (Some n) -> Assign vars ints 32 n = Ok (Some (2 ^ 31 - 2 ^ 8)).
Proof. intros n H. injection H as <-. vm_compute. reflexivity. Qed.
(** Sets of both sizes with 64-element SETs. *)
Definition m : source := SBin SSlash (SBin STimes (SVar 0 32) (SElem (EConst 40))) (SBin SMinus (SRange (EVar 0) (EConst 60)) (SElem (EConst 7))).
Example mixed : legal 64 vars ints m /\ clean 64 vars ints m /\ bits 64 vars ints m = 64.
Proof. split; [cbn; unfold vars, ints; repeat split; try lia; auto|]. split; [|reflexivity]. cbn [m clean]. repeat split; try discriminate; vm_compute; congruence. Qed.
Example mixed_value : forall n, build 8 m = Ok (Some n) -> Assign vars ints 64 n = Ok (Some (2 ^ 61 - 2 ^ 5 - 2 ^ 7)).
Proof. intros n H. injection H as <-. vm_compute. reflexivity. Qed.
End Case.
