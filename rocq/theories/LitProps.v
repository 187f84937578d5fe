(** Integer constants get the smallest type (C41); constants written to the C file have their value there (C48, C49). *)
From Verif Require Import Base ArithModel LitModel.

(** ** C41 *)
(** n is a signed number of b bytes. *)
Definition fits (b n : Z) : Prop := - 2 ^ (8 * b - 1) <= n < 2 ^ (8 * b - 1).
Lemma chk64 : forall x, - (9223372036854775808) <= x < 9223372036854775808 -> chk 64 x = Ok x.
Proof. intros x H. unfold chk. rewrite (proj2 (in_intb_iff 64 x)); [reflexivity |]. unfold in_int. change (2 ^ (64 - 1)) with 9223372036854775808. lia. Qed.
Lemma ASH_neg : forall n k, 0 < k < 64 -> ASH n (- k) = Ok (n / 2 ^ k).
Proof.
  intros n k H. unfold ASH. destruct (Z.geb_spec (- k) 0); [lia |]. unfold ASHR. destruct (Z.leb_spec 0 (- - k)), (Z.ltb_spec (- - k) 64); try lia. cbn [andb].
  rewrite Z.opp_involutive, Z.shiftr_div_pow2 by lia. reflexivity.
Qed.
Lemma size_loop_spec : forall k n b, 0 <= n < 2 ^ 63 -> 1 <= b -> 9 <= Z.of_nat k + b -> (forall b', 1 <= b' < b -> 2 ^ (8 * b' - 1) <= n) ->
  exists r, size_loop k n b = Ok r /\ 1 <= r <= 8 /\ n < 2 ^ (8 * r - 1) /\ (forall b', 1 <= b' < r -> 2 ^ (8 * b' - 1) <= n).
Proof.
  induction k as [| k IH]; intros n b Hn Hb Hk HI; [exfalso; specialize (HI 8 ltac:(lia)); change (8 * 8 - 1) with 63 in HI; lia |].
  cbn [size_loop]. destruct (Z.ltb_spec b 8) as [L | L].
  - rewrite ASH_neg by lia. cbn [bind]. assert (0 < 2 ^ (8 * b - 1)) by (apply Z.pow_pos_nonneg; lia). destruct (Z.eqb_spec (n / 2 ^ (8 * b - 1)) 0) as [E | N]; cbn [negb].
    + exists b. split; [reflexivity |]. split; [lia |]. split; [apply Z.div_small_iff in E; lia | exact HI].
    + apply IH; try lia. intros b' Hb'. destruct (Z.eq_dec b' b) as [-> | Ne]; [| apply HI; lia]. destruct (Z_lt_le_dec n (2 ^ (8 * b - 1))); [| assumption].
      exfalso. apply N. apply Z.div_small. lia.
  - destruct (Z.eq_dec b 8) as [-> | N8]; [| exfalso; specialize (HI 8 ltac:(lia)); change (8 * 8 - 1) with 63 in HI; lia]. exists 8. split; [reflexivity |]. split; [lia |]. split; [change (8 * 8 - 1) with 63; lia | exact HI].
Qed.
Lemma IntSize_spec : forall n, in_int 64 n -> exists b, IntSize n = Ok b /\ 1 <= b <= 8 /\ fits b n /\ forall b', 1 <= b' < b -> ~ fits b' n.
Proof.
  intros n Hn. unfold in_int in Hn. change (2 ^ (64 - 1)) with 9223372036854775808 in Hn. unfold IntSize, fits.
  destruct (Z.ltb_spec n 0) as [G | G].
  - rewrite chk64 by lia. cbn [bind]. rewrite chk64 by lia. cbn [bind]. destruct (size_loop_spec 9 (- (n + 1)) 1) as (r & E & Hr & H1 & H2); [change (2 ^ 63) with 9223372036854775808; lia | lia | lia | intros; lia |].
    exists r. rewrite E. split; [reflexivity |]. split; [exact Hr |]. split; [lia |]. intros b' Hb' C. specialize (H2 b' Hb'). lia.
  - cbn [bind]. destruct (size_loop_spec 9 n 1) as (r & E & Hr & H1 & H2); [change (2 ^ 63) with 9223372036854775808; lia | lia | lia | intros; lia |].
    exists r. rewrite E. split; [reflexivity |]. split; [exact Hr |]. split; [lia |]. intros b' Hb' C. specialize (H2 b' Hb'). lia.
Qed.
Definition int_size (s : Z) : Prop := s = 1 \/ s = 2 \/ s = 4 \/ s = 8.
Lemma fits_mono : forall a b n, 1 <= a <= b -> fits a n -> fits b n.
Proof. unfold fits. intros a b n H F. assert (2 ^ (8 * a - 1) <= 2 ^ (8 * b - 1)) by (apply Z.pow_le_mono_r; lia). lia. Qed.
(** The type of an integer constant is the shortest integer type that contains it. *)
Theorem C41_smallest : forall n, in_int 64 n -> exists s, SetIntType n = Ok s /\ int_size s /\ fits s n /\ forall s', int_size s' -> fits s' n -> s <= s'.
Proof.
  intros n Hn. destruct (IntSize_spec n Hn) as (b & E & Hb & H1 & H2). unfold SetIntType. rewrite E. cbn [bind]. exists (IntType b). split; [reflexivity |]. unfold int_size, IntType.
  destruct (Z.leb_spec b 1); [| destruct (Z.leb_spec b 2); [| destruct (Z.leb_spec b 4)]]; (split; [lia |]; split; [eapply fits_mono; [| exact H1]; lia |]); intros s' Hs' F;
    (destruct (Z_lt_le_dec s' b) as [L | L]; [exfalso; apply (H2 s'); [lia | exact F] | lia]).
Qed.
(** The three size models of OPM.Mod 328-333. *)
Definition model (sint int lint : Z) : Prop := (sint = 1 /\ int = 2 /\ lint = 4) \/ (sint = 2 /\ int = 4 /\ lint = 8) \/ (sint = 1 /\ int = 4 /\ lint = 8).
(** LONG gives the next longer type of SHORTINT, INTEGER, LONGINT and INT64, so that every value is kept. *)
Theorem C41_longer : forall sint int lint s, model sint int lint -> int_size s -> let r := Longer sint int lint s in
  int_size r /\ (forall n, fits s n -> fits r n) /\ (s < 8 -> s < r /\ forall t, (t = sint \/ t = int \/ t = lint \/ t = 8) -> s < t -> r <= t).
Proof.
  intros sint int lint s HM HS r. assert (G : int_size r /\ s <= r /\ (s < 8 -> s < r /\ forall t, (t = sint \/ t = int \/ t = lint \/ t = 8) -> s < t -> r <= t)).
  { subst r. unfold Longer, int_size, model in *. destruct (Z.ltb_spec s sint), (Z.ltb_spec s int), (Z.ltb_spec s lint); (split; [lia | split; [lia | intros HL; split; [lia | intros t Ht Hlt; lia]]]). }
  destruct G as (G1 & G2 & G3). split; [exact G1 |]. split; [| exact G3]. intros n F. eapply fits_mono; [| exact F]. unfold int_size in HS. lia.
Qed.
(** SHORT gives the next shorter type; values of that type are values of the longer one. *)
Theorem C41_shorter : forall sint int lint s, model sint int lint -> int_size s -> let r := Shorter sint int lint s in
  int_size r /\ (forall n, fits r n -> fits s n) /\ (1 < s -> r < s /\ forall t, (t = sint \/ t = int \/ t = lint \/ t = 1) -> t < s -> t <= r).
Proof.
  intros sint int lint s HM HS r. assert (G : int_size r /\ r <= s /\ (1 < s -> r < s /\ forall t, (t = sint \/ t = int \/ t = lint \/ t = 1) -> t < s -> t <= r)).
  { subst r. unfold Shorter, int_size, model in *. destruct (Z.gtb_spec s lint), (Z.gtb_spec s int), (Z.gtb_spec s sint); (split; [lia | split; [lia | intros HL; split; [lia | intros t Ht Hlt; lia]]]). }
  destruct G as (G1 & G2 & G3). split; [exact G1 |]. split; [| exact G3]. intros n F. eapply fits_mono; [| exact F]. unfold int_size in G1. lia.
Qed.
(** The limits of the integer types. *)
Theorem C41_limits : forall b, int_size b -> SignedMaximum b = Ok (2 ^ (8 * b - 1) - 1) /\ SignedMinimum b = Ok (- 2 ^ (8 * b - 1)).
Proof. intros b [-> | [-> | [-> | ->]]]; split; vm_compute; reflexivity. Qed.
(** In C the computation of MAX of the 8-byte type overflows; that it wraps around is up to the C compiler. *)
Theorem C41_limits_refuted : SignedMaximum_strict 8 = UB.
Proof. vm_compute. reflexivity. Qed.
Example C41_example : SetIntType 127 = Ok 1 /\ SetIntType (-128) = Ok 1 /\ SetIntType 128 = Ok 2 /\ SetIntType (-32769) = Ok 4 /\ SetIntType (- 2 ^ 63) = Ok 8 /\ model 1 2 4.
Proof. unfold model. repeat split; try (vm_compute; reflexivity). lia. Qed.

(** ** C48: C integer expressions *)
(** The decimal digits at the start of a text. *)
Fixpoint digits (t : list Z) : list Z * list Z := match t with c :: r => if (48 <=? c) && (c <=? 57) then let '(d, r) := digits r in (c :: d, r) else ([], t) | [] => ([], []) end.
Definition decimal (ds : list Z) : Z := fold_left (fun v c => 10 * v + (c - 48)) ds 0.
(** A C integer literal (C11 6.4.4.1) at the start of a text: the width of its type and its value.  Without suffix the type is int if the value fits, else
    long or long long; with LL it is long long.  Digits that start with 0 are octal, and no such literals are accepted here except 0 itself. *)
Definition c_literal (t : list Z) : option (Z * Z * list Z) :=
  let '(ds, r) := digits t in
  match ds with
  | [] => None
  | d :: ds' =>
      if (d =? 48) && negb (Nat.eqb (length ds') 0) then None
      else
        let v := decimal ds in
        match r with
        | 76 :: 76 :: r => if v <? 2 ^ 63 then Some (64, v, r) else None
        | _ => if v <? 2 ^ 31 then Some (32, v, r) else if v <? 2 ^ 63 then Some (64, v, r) else None
        end
  end.
(** A literal or the negative of one. *)
Definition c_signed (t : list Z) : option (Z * Z * list Z) :=
  match t with 45 :: t => match c_literal t with Some (w, v, r) => Some (w, - v, r) | None => None end | _ => c_literal t end.
(** A C expression: a signed literal, (x-y), or ((INT<n>)(x)); None if it is none of these or overflows. *)
Definition c_simple (t : list Z) : option (Z * Z) :=
  match t with
  | 40 :: t =>
      match c_signed t with
      | Some (w1, v1, 45 :: t) =>
          match c_literal t with
          | Some (w2, v2, [41]) => let w := Z.max w1 w2 in if in_intb w (v1 - v2) then Some (w, v1 - v2) else None
          | _ => None
          end
      | _ => None
      end
  | _ => match c_signed t with Some (w, v, []) => Some (w, v) | _ => None end
  end.
Definition c_expr (t : list Z) : option (Z * Z) :=
  match t with
  | 40 :: 40 :: 73 :: 78 :: 84 :: t =>
      match c_literal t with
      | Some (_, w, 41 :: 40 :: t) =>
          match rev t with 41 :: 41 :: t => match c_simple (rev t) with Some (_, v) => Some (w, wrap_s w v) | None => None end | _ => None end
      | _ => None
      end
  | _ => c_simple t
  end.

(** The digits of a number, highest first. *)
Inductive num : Z -> list Z -> Prop :=
| num1 : forall d, 0 <= d <= 9 -> num d [d + 48]
| numS : forall v ds d, 0 < v -> num v ds -> 0 <= d <= 9 -> num (10 * v + d) (ds ++ [d + 48]).
Lemma decimal_snoc : forall ds c, decimal (ds ++ [c]) = 10 * decimal ds + (c - 48).
Proof. intros ds c. unfold decimal. rewrite fold_left_app. reflexivity. Qed.
Lemma num_spec : forall v ds, num v ds -> decimal ds = v /\ Forall (fun c => 48 <= c <= 57) ds /\ 0 <= v /\ exists d r, ds = d :: r /\ (d = 48 -> r = [] /\ v = 0).
Proof.
  induction 1 as [d Hd | v ds d Hv HN IH Hd].
  - split; [unfold decimal; cbn [fold_left]; lia |]. split; [constructor; [lia | constructor] |]. split; [lia |]. exists (d + 48), []. split; [reflexivity | intros; split; [reflexivity | lia]].
  - destruct IH as (I1 & I2 & I3 & x & r & -> & I4). split; [rewrite decimal_snoc, I1; lia |]. split; [apply Forall_app; split; [exact I2 | constructor; [lia | constructor]] |]. split; [lia |].
    exists x, (r ++ [d + 48]). split; [reflexivity |]. intros ->. destruct (I4 eq_refl). lia.
Qed.
Lemma num_len : forall v ds, num v ds -> v = 0 \/ 10 ^ (Z.of_nat (length ds) - 1) <= v.
Proof.
  induction 1 as [d Hd | v ds d Hv HN IH Hd]; [cbn; lia |]. right. destruct IH as [IH | IH]; [lia |]. rewrite app_length. cbn [length].
  assert (1 <= Z.of_nat (length ds)) by (pose proof (num_spec _ _ HN) as (_ & _ & _ & x & r & -> & _); cbn [length]; lia).
  replace (Z.of_nat (length ds + 1) - 1) with (Z.succ (Z.of_nat (length ds) - 1)) by lia. rewrite Z.pow_succ_r by lia. lia.
Qed.
(** The loop: with the digits of the low part in s, the rest is appended lowest first. *)
Lemma wi_loop_spec : forall f i1 s, 0 <= i1 -> i1 < 10 ^ Z.of_nat f -> (length s + f <= 25)%nat -> exists ds, wi_loop (S f) i1 s = Ok (s ++ rev ds) /\ (i1 = 0 /\ ds = [] \/ 0 < i1 /\ num i1 ds) /\ (length ds <= f)%nat.
Proof.
  induction f as [| f IH]; intros i1 s H0 H1 HL.
  - change (10 ^ Z.of_nat 0) with 1 in H1. replace i1 with 0 by lia. exists []. cbn. rewrite app_nil_r. split; [reflexivity |]. split; [auto | lia].
  - cbn [wi_loop]. destruct (Z.gtb_spec i1 0) as [G | G].
    + destruct (Z.ltb_spec (Z.of_nat (length s)) 26); [| lia]. rewrite Nat2Z.inj_succ, Z.pow_succ_r in H1 by lia.
      destruct (IH (i1 / 10) (s ++ [i1 mod 10 + 48]) ltac:(lia) ltac:(lia) ltac:(rewrite app_length; cbn [length]; lia)) as (ds & E & HD & HLd).
      cbn [wi_loop] in E. rewrite E. exists (ds ++ [i1 mod 10 + 48]). rewrite rev_app_distr, <- app_assoc. cbn [rev app]. split; [reflexivity |]. split; [| rewrite app_length; cbn [length]; lia]. right. split; [exact G |].
      destruct HD as [[Hz ->] | [Hp HN]].
      * cbn [app]. replace (i1 mod 10 + 48) with (i1 + 48) by lia. apply num1. lia.
      * replace i1 with (10 * (i1 / 10) + i1 mod 10) at 1 by lia. apply numS; [exact Hp | exact HN | lia].
    + exists []. cbn. rewrite app_nil_r. split; [reflexivity |]. split; [left; split; [lia | reflexivity] | lia].
Qed.
Lemma wi_fuel : forall f i1 s r, wi_loop f i1 s = Ok r -> forall k, wi_loop (f + k) i1 s = Ok r.
Proof.
  induction f as [| f IH]; intros i1 s r E k; [discriminate |]. cbn [wi_loop Nat.add] in *. destruct (i1 >? 0); [| exact E]. destruct (Z.of_nat (length s) <? 26); [| discriminate]. apply IH, E.
Qed.
(** The digits of i1, lowest first, and the sign. *)
Lemma digits_text : forall i1 pre, 0 <= i1 < 2 ^ 63 -> (length pre <= 2)%nat -> exists ds, num i1 ds /\ wi_loop 64 (i1 / 10) (pre ++ [i1 mod 10 + 48]) = Ok (pre ++ rev ds) /\ (length ds <= 20)%nat.
Proof.
  intros i1 pre H HP. change (2 ^ 63) with 9223372036854775808 in H.
  destruct (wi_loop_spec 19 (i1 / 10) (pre ++ [i1 mod 10 + 48]) ltac:(lia)) as (ds & E & HD & HL); [change (10 ^ Z.of_nat 19) with 10000000000000000000; lia | rewrite app_length; cbn [length]; lia |].
  exists (ds ++ [i1 mod 10 + 48]). split; [| split].
  - destruct HD as [[Hz ->] | [Hp HN]].
    + cbn [app]. replace (i1 mod 10 + 48) with (i1 + 48) by lia. apply num1. lia.
    + replace i1 with (10 * (i1 / 10) + i1 mod 10) at 1 by lia. apply numS; [exact Hp | exact HN | lia].
  - rewrite (wi_fuel 20 _ _ _ E 44 : wi_loop 64 _ _ = _). rewrite rev_app_distr, <- app_assoc. reflexivity.
  - rewrite app_length. cbn [length]. lia.
Qed.
Lemma digits_app : forall ds r, Forall (fun c => 48 <= c <= 57) ds -> (match r with c :: _ => c < 48 \/ 57 < c | [] => True end) -> digits (ds ++ r) = (ds, r).
Proof.
  intros ds r HF HR. induction HF as [| c ds Hc HF IH].
  - cbn [app]. destruct r as [| c r]; [reflexivity |]. cbn [digits]. destruct (Z.leb_spec 48 c), (Z.leb_spec c 57); try reflexivity. lia.
  - cbn [app digits]. destruct (Z.leb_spec 48 c), (Z.leb_spec c 57); try lia. cbn [andb]. rewrite IH. reflexivity.
Qed.
Definition tail (i1 : Z) : list Z := if i1 <=? 2147483647 then [] else [76; 76].
Lemma literal_text : forall i1 ds r, 0 <= i1 < 2 ^ 63 -> num i1 ds -> (match r with c :: _ => c = 45 \/ c = 41 | [] => True end) ->
  c_literal (ds ++ tail i1 ++ r) = Some (if i1 <? 2 ^ 31 then 32 else 64, i1, r).
Proof.
  intros i1 ds r H HN HR. destruct (num_spec _ _ HN) as (D1 & D2 & D3 & d & dr & -> & D4). unfold c_literal. unfold tail. change (2 ^ 31) with 2147483648 in *.
  rewrite digits_app; [| exact D2 | destruct (Z.leb_spec i1 2147483647); [destruct r; [exact I | cbn; lia] | cbn; lia]].
  assert (EZ : (d =? 48) && negb (Nat.eqb (length dr) 0) = false).
  { destruct (Z.eqb_spec d 48) as [-> | N]; [| reflexivity]. destruct (D4 eq_refl) as [-> _]. reflexivity. }
  rewrite EZ, D1. destruct (Z.leb_spec i1 2147483647) as [L | L].
  - cbn [app]. destruct (Z.ltb_spec i1 2147483648); [| lia]. destruct r as [| c r]; [reflexivity |]. assert (c <> 76) by lia. destruct c as [| p | p]; try reflexivity. do 7 (destruct p; try reflexivity). lia.
  - cbn [app]. destruct (Z.ltb_spec i1 (2 ^ 63)); [| lia]. destruct (Z.ltb_spec i1 2147483648); [lia | reflexivity].
Qed.
Definition special (i : Z) : bool := (i =? -32768) || (i =? -2147483648) || (i =? - (9223372036854775808)).
Lemma WriteInt_step : forall f i, WriteInt_ (S f) i = if special i then let* j := chk 64 (i + 1) in let* t := WriteInt_ f j in Ok ([40] ++ t ++ [45; 49; 41])
      else
        let* i1 := ABS_inline 64 i in
        let s := if i1 <=? 2147483647 then [] else [76; 76] in
        let s := s ++ [i1 mod 10 + 48] in
        let* s := wi_loop 64 (i1 / 10) s in
        let* s := (if i <? 0 then if Z.of_nat (length s) <? 26 then Ok (s ++ [45]) else Trap (-2) else Ok s) in
        Ok (rev s).
Proof. reflexivity. Qed.
Definition width (i : Z) : Z := if in_intb 32 i then 32 else 64.
(** The common case: a sign and a literal. *)
Lemma WriteInt_plain : forall f i, - (9223372036854775808) < i < 9223372036854775808 -> special i = false -> exists ds, num (Z.abs i) ds /\ WriteInt_ (S f) i = Ok ((if i <? 0 then [45] else []) ++ ds ++ tail (Z.abs i)).
Proof.
  intros f i H HS. rewrite WriteInt_step, HS. assert (EA : ABS_inline 64 i = Ok (Z.abs i)) by (unfold ABS_inline; destruct (Z.ltb_spec i 0); [rewrite chk64 by lia; f_equal; lia | f_equal; lia]).
  rewrite EA. cbn [bind]. cbv zeta. set (pre := if Z.abs i <=? 2147483647 then [] else [76; 76]).
  assert (HP : (length pre <= 2)%nat) by (unfold pre; destruct (Z.abs i <=? 2147483647); cbn; lia).
  destruct (digits_text (Z.abs i) pre ltac:(change (2 ^ 63) with 9223372036854775808; lia) HP) as (ds & HN & E & HL). rewrite E. cbn [bind]. exists ds. split; [exact HN |].
  assert (ER : rev (pre ++ rev ds) = ds ++ tail (Z.abs i)) by (rewrite rev_app_distr, rev_involutive; unfold pre, tail; destruct (Z.abs i <=? 2147483647); reflexivity).
  destruct (Z.ltb_spec i 0) as [G | G].
  - destruct (Z.ltb_spec (Z.of_nat (length (pre ++ rev ds))) 26); [| rewrite app_length, rev_length in *; lia]. cbn [bind]. rewrite rev_app_distr, ER. reflexivity.
  - cbn [bind]. rewrite ER. reflexivity.
Qed.
Lemma signed_text : forall i ds r, - (9223372036854775808) < i < 9223372036854775808 -> special i = false -> num (Z.abs i) ds -> (match r with c :: _ => c = 45 \/ c = 41 | [] => True end) ->
  c_signed (((if i <? 0 then [45] else []) ++ ds ++ tail (Z.abs i)) ++ r) = Some (width i, i, r).
Proof.
  intros i ds r H HS HN HR. pose proof (literal_text (Z.abs i) ds r ltac:(change (2 ^ 63) with 9223372036854775808; lia) HN HR) as EL. rewrite app_assoc in EL.
  assert (EW : (if Z.abs i <? 2 ^ 31 then 32 else 64) = width i).
  { unfold width, in_intb, special in *. change (2 ^ (32 - 1)) with 2147483648. change (2 ^ 31) with 2147483648. destruct (Z.ltb_spec (Z.abs i) 2147483648), (Z.leb_spec (- (2147483648)) i), (Z.ltb_spec i 2147483648); cbn [andb]; try reflexivity; try lia.
  }
  rewrite EW in EL. unfold c_signed. destruct (Z.ltb_spec i 0) as [G | G].
  - cbn [app]. rewrite EL. do 3 f_equal. lia.
  - cbn [app]. destruct (num_spec _ _ HN) as (_ & D2 & _ & d & dr & -> & _). inversion D2 as [| ? ? Hd _]; subst. cbn [app] in *.
    replace (Z.abs i) with i in * by lia.
    destruct d as [| p | p]; try lia. do 6 (destruct p; try exact EL; try lia).
Qed.
Lemma simple_plain : forall i ds, - (9223372036854775808) < i < 9223372036854775808 -> special i = false -> num (Z.abs i) ds ->
  c_simple ((if i <? 0 then [45] else []) ++ ds ++ tail (Z.abs i)) = Some (width i, i).
Proof.
  intros i ds H HS HN. pose proof (signed_text i ds [] H HS HN I) as E. rewrite app_nil_r in E. unfold c_simple.
  destruct (num_spec _ _ HN) as (_ & D2 & _ & d & dr & -> & _). inversion D2 as [| ? ? Hd _]; subst.
  destruct (i <? 0); cbn [app] in *; [rewrite E; reflexivity |]. destruct d as [| p | p]; try lia. do 6 (destruct p; try (rewrite E; reflexivity); try lia).
Qed.
(** The text written for an integer constant is a C expression with that value; its type is int if the value fits into 32 bits, otherwise 64 bits wide. *)
Theorem C48_value : forall i, in_int 64 i -> exists t, WriteInt i = Ok t /\ c_simple t = Some (width i, i).
Proof.
  intros i H. unfold in_int in H. change (2 ^ (64 - 1)) with 9223372036854775808 in H. unfold WriteInt. destruct (special i) eqn:ES.
  - assert (i = -32768 \/ i = -2147483648 \/ i = - (9223372036854775808)) as [-> | [-> | ->]].
    { unfold special in ES. destruct (Z.eqb_spec i (-32768)), (Z.eqb_spec i (-2147483648)), (Z.eqb_spec i (- (9223372036854775808))); cbn in ES; try discriminate; lia. }
    + exists (match WriteInt_ 2 (-32768) with Ok t => t | _ => [] end). split; vm_compute; reflexivity.
    + exists (match WriteInt_ 2 (-2147483648) with Ok t => t | _ => [] end). split; vm_compute; reflexivity.
    + exists (match WriteInt_ 2 (- (9223372036854775808)) with Ok t => t | _ => [] end). split; vm_compute; reflexivity.
  - assert (- (9223372036854775808) < i) by (unfold special in ES; destruct (Z.eqb_spec i (- (9223372036854775808))); [rewrite !orb_true_r in ES; discriminate | lia]).
    destruct (WriteInt_plain 1 i ltac:(lia) ES) as (ds & HN & E). rewrite E. eexists. split; [reflexivity |]. apply simple_plain; [lia | exact ES | exact HN].
Qed.
(** A constant of a given size: 8-byte constants are cast, so that the expression has 64 bits. *)
Theorem C48_literal : forall n size, int_size size -> fits size n -> n <> - 2 ^ 31 \/ size <> 8 -> exists t w, IntLiteral n size = Ok t /\ c_expr t = Some (w, n) /\ w >= 8 * size.
Proof.
  intros n size HS HF HX. assert (in_int 64 n).
  { unfold in_int. change (64 - 1) with (8 * 8 - 1). apply (fits_mono size 8); [unfold int_size in HS; lia | exact HF]. }
  destruct (C48_value n H) as (t & E & EV). unfold IntLiteral. rewrite E. change (- 2 ^ 31) with (-2147483648) in HX.
  destruct ((size >? 4) && (n <=? 2147483647) && (n >? -2147483648)) eqn:EC.
  - assert (size = 8) as -> by (unfold int_size in HS; destruct (Z.gtb_spec size 4); [lia | discriminate]). cbn [bind].
    exists ([40; 40; 73; 78; 84] ++ [54; 52] ++ [41; 40] ++ t ++ [41; 41]), 64. split; [reflexivity |]. split; [| lia].
    unfold c_expr. cbn [app]. change (c_literal (54 :: 52 :: 41 :: 40 :: t ++ [41; 41])) with (Some (32, 64, 41 :: 40 :: t ++ [41; 41])). cbn beta iota.
    rewrite rev_app_distr. cbn [rev app]. rewrite rev_involutive, EV. rewrite wrap_s_id; [reflexivity | lia | exact H].
  - exists t, (width n). split; [reflexivity |]. split.
    + unfold c_expr. destruct t as [| c t]; [discriminate |]. unfold c_simple in EV |- *. destruct c as [| p | p]; try exact EV.
      do 6 (destruct p; try exact EV). destruct t as [| c2 t]; [exact EV |]. destruct c2 as [| q | q]; try exact EV. do 6 (destruct q; try exact EV).
      destruct t as [| c3 t]; exact EV || discriminate.
    + unfold width, in_intb. change (2 ^ (32 - 1)) with 2147483648. unfold fits, int_size in *. change (8 * 4 - 1) with 31 in *.
      destruct (Z.gtb_spec size 4) as [G | G].
      * replace size with 8 in * by lia. cbn [andb] in EC. destruct (Z.leb_spec (- (2147483648)) n), (Z.ltb_spec n 2147483648); cbn [andb]; try lia; exfalso; cbn in EC; lia.
      * destruct ((- (2147483648) <=? n) && (n <? 2147483648)); lia.
Qed.
(** The exception cannot be dropped: the 8-byte constant MIN(INT32) is written as an expression of type int. *)
Theorem C48_literal_refuted : exists t, IntLiteral (- 2 ^ 31) 8 = Ok t /\ fits 8 (- 2 ^ 31) /\ c_expr t = Some (32, - 2 ^ 31).
Proof. exists (match IntLiteral (- 2 ^ 31) 8 with Ok t => t | _ => [] end). split; [vm_compute; reflexivity |]. split; [unfold fits; cbn; lia | vm_compute; reflexivity]. Qed.

(** Sets are written as hexadecimal literals. *)
Definition hexvalue (c : Z) : option Z := if (48 <=? c) && (c <=? 57) then Some (c - 48) else if (97 <=? c) && (c <=? 102) then Some (c - 87) else None.
Fixpoint hexnum (t : list Z) (v : Z) : option Z := match t with [] => Some v | c :: t => match hexvalue c with Some d => hexnum t (16 * v + d) | None => None end end.
Definition c_hex (t : list Z) : option Z := match t with 48 :: 120 :: c :: t => hexnum (c :: t) 0 | _ => None end.
Lemma hexvalue_char : forall d, 0 <= d <= 15 -> hexvalue (hexchar d) = Some d.
Proof.
  intros d H. unfold hexchar, hexvalue. destruct (Z.ltb_spec d 10).
  - destruct (Z.leb_spec 48 (48 + d)), (Z.leb_spec (48 + d) 57); try lia. cbn [andb]. f_equal. lia.
  - destruct (Z.leb_spec 48 (97 - 10 + d)), (Z.leb_spec (97 - 10 + d) 57), (Z.leb_spec 97 (97 - 10 + d)), (Z.leb_spec (97 - 10 + d) 102); try lia. cbn [andb]. f_equal. lia.
Qed.
Lemma hexnum_app : forall t u v w, hexnum t v = Some w -> hexnum (t ++ u) v = hexnum u w.
Proof. induction t as [| c t IH]; intros u v w E; cbn [hexnum app] in *; [injection E as ->; reflexivity |]. destruct (hexvalue c); [apply IH, E | discriminate]. Qed.
Lemma WriteHex_value : forall b v, 0 <= b <= 255 -> hexnum (WriteHex b) v = Some (256 * v + b).
Proof.
  intros b v H. unfold WriteHex. rewrite wrap_s_id by (unfold in_int; change (2 ^ (32 - 1)) with 2147483648; lia). rewrite Z.shiftr_div_pow2 by lia. change (2 ^ 4) with 16.
  cbn [hexnum]. rewrite !hexvalue_char by lia. f_equal. lia.
Qed.
Lemma bit_div : forall s i, 0 <= i -> s / 2 ^ i = 2 * (s / 2 ^ (i + 1)) + (if Z.testbit s i then 1 else 0).
Proof.
  intros s i H. rewrite <- (Z.shiftr_div_pow2 s i) by lia. rewrite <- (Z.shiftr_div_pow2 s (i + 1)) by lia. rewrite <- Z.shiftr_shiftr by lia. rewrite (Z.shiftr_div_pow2 _ 1) by lia. change (2 ^ 1) with 2.
  pose proof (Z.div_mod (Z.shiftr s i) 2 ltac:(lia)) as E. rewrite Zmod_odd in E. rewrite <- Z.bit0_odd in E. rewrite Z.shiftr_spec in E by lia. rewrite Z.add_0_l in E.
  destruct (Z.testbit s i); lia.
Qed.
(** One byte: from i = 8 k + r with r more bits to read. *)
Lemma set_byte_spec : forall r k s hex, 0 <= s -> 0 <= k -> (1 <= r <= 8)%nat -> hex = s / 2 ^ (8 * k + Z.of_nat r) - 2 ^ (8 - Z.of_nat r) * (s / 2 ^ (8 * (k + 1))) ->
  set_byte r s (8 * k + Z.of_nat r) hex = Ok (8 * k, s / 2 ^ (8 * k) - 256 * (s / 2 ^ (8 * (k + 1)))).
Proof.
  induction r as [| r IH]; intros k s hex Hs Hk Hr HX; [clear - Hr; lia |]. cbn [set_byte]. cbv zeta.
  replace (8 * k + Z.of_nat (S r) - 1) with (8 * k + Z.of_nat r) by (clear; lia).
  assert (E1 : 8 * k + Z.of_nat r + 1 = 8 * k + Z.of_nat (S r)) by (clear; lia). assert (E2 : 8 - Z.of_nat r = Z.succ (8 - Z.of_nat (S r))) by (clear; lia).
  assert (HX2 : 2 * hex + (if Z.testbit s (8 * k + Z.of_nat r) then 1 else 0) = s / 2 ^ (8 * k + Z.of_nat r) - 2 ^ (8 - Z.of_nat r) * (s / 2 ^ (8 * (k + 1)))).
  { rewrite (bit_div s (8 * k + Z.of_nat r)) by (clear - Hk; lia). rewrite HX, E1, E2, Z.pow_succ_r by (clear - Hr; lia). ring. }
  clear HX. destruct r as [| r].
  - replace (8 * k + Z.of_nat 0) with (8 * k) in * by (clear; lia). destruct (Z.eqb_spec ((8 * k) mod 8) 0) as [_ | N]; [| exfalso; clear - N; lia]. rewrite HX2. do 2 f_equal.
  - destruct (Z.eqb_spec ((8 * k + Z.of_nat (S r)) mod 8) 0) as [N | _]; [exfalso; clear - N Hr; lia |]. apply IH; try assumption. clear - Hr; lia.
Qed.
Lemma set_loop_spec : forall k s skip out v, 0 <= s -> (skip = true -> v = 0 /\ out = [48; 120]) -> (skip = false -> exists c t, out = 48 :: 120 :: c :: t /\ hexnum (c :: t) 0 = Some v) -> v = s / 2 ^ (8 * Z.of_nat (S k)) ->
  exists out' skip', set_loop (S k) s (8 * Z.of_nat (S k)) skip out = Ok (out', skip') /\ (skip' = true -> s = 0 /\ out' = [48; 120]) /\ (skip' = false -> c_hex out' = Some s).
Proof.
  induction k as [| k IH]; intros s skip out v Hs H1 H2 HV.
  - cbn [set_loop]. replace (8 * Z.of_nat 1) with (8 * 0 + Z.of_nat 8) by lia. rewrite (set_byte_spec 8 0 s 0 Hs ltac:(lia) ltac:(lia)) by (change (8 * 0 + Z.of_nat 8) with 8; change (8 * (0 + 1)) with 8; change (8 - Z.of_nat 8) with 0; change (2 ^ 0) with 1; ring). cbn [bind].
    change (8 * 0) with 0. change (8 * (0 + 1)) with 8. change (8 * Z.of_nat 1) with 8 in HV. change (2 ^ 0) with 1. change (2 ^ 8) with 256 in *. rewrite Z.div_1_r in *. change (0 =? 0) with true.
    set (b := s - 256 * (s / 256)). assert (Hb : 0 <= b <= 255) by (unfold b; lia).
    destruct (negb (b =? 0) || negb skip) eqn:EN.
    + do 2 eexists. split; [reflexivity |]. split; [discriminate |]. intros _. destruct skip.
      * destruct (H1 eq_refl) as [Hv ->]. unfold c_hex. cbn [app]. change ([48; 120] ++ WriteHex b) with (48 :: 120 :: WriteHex b). unfold WriteHex at 1. cbn [app]. fold (WriteHex b). change ([hexchar (Z.shiftr (wrap_s 32 b) 4); hexchar (wrap_s 32 b mod 16)]) with (WriteHex b).
        rewrite WriteHex_value by exact Hb. f_equal. unfold b. lia.
      * destruct (H2 eq_refl) as (c & t & -> & EH). unfold c_hex. cbn [app]. change (c :: t ++ WriteHex b) with ((c :: t) ++ WriteHex b). rewrite (hexnum_app _ _ _ _ EH), WriteHex_value by exact Hb. f_equal. unfold b. lia.
    + do 2 eexists. split; [reflexivity |]. destruct skip; cbn [negb] in EN; [| rewrite orb_true_r in EN; discriminate]. destruct (H1 eq_refl) as [Hv ->].
      destruct (Z.eqb_spec b 0); [| discriminate]. split; [intros _; split; [unfold b in *; lia | reflexivity] | discriminate].
  - set (K := Z.of_nat (S k)). replace (8 * Z.of_nat (S (S k))) with (8 * K + Z.of_nat 8) in * by lia. remember (S k) as k1 eqn:Ek1. cbn [set_loop].
    rewrite (set_byte_spec 8 K s 0 Hs ltac:(lia) ltac:(lia)) by (replace (8 * K + Z.of_nat 8) with (8 * (K + 1)) by lia; change (8 - Z.of_nat 8) with 0; change (2 ^ 0) with 1; ring). cbn [bind].
    replace (8 * K + Z.of_nat 8) with (8 * (K + 1)) in HV by (clear; lia).
    assert (HD : s / 2 ^ (8 * (K + 1)) = s / 2 ^ (8 * K) / 256).
    { clear - Ek1. replace (8 * (K + 1)) with (8 * K + 8) by lia. assert (0 <= 8 * K) by (unfold K; lia). rewrite Z.pow_add_r, <- Z.div_div by (try apply Z.pow_nonzero; try apply Z.pow_pos_nonneg; lia). reflexivity. }
    rewrite HD in *. assert (HK0 : 8 * K <> 0) by (clear - Ek1; unfold K; lia). destruct (Z.eqb_spec (8 * K) 0) as [C | _]; [contradiction |].
    remember (s / 2 ^ (8 * K)) as A eqn:HA. clear HD. set (b := A - 256 * (A / 256)). assert (Hb : 0 <= b <= 255) by (clear; unfold b; lia). assert (HV2 : A = 256 * v + b) by (clear - HV; unfold b; lia). clearbody b. clear HV.
    destruct (negb (b =? 0) || negb skip) eqn:EN.
    + subst k1. apply (IH s false (out ++ WriteHex b) (256 * v + b)); [exact Hs | discriminate | | rewrite <- HV2; exact HA]. intros _. destruct skip.
      * destruct (H1 eq_refl) as [-> ->]. do 2 eexists. split; [reflexivity |]. exact (WriteHex_value b 0 Hb).
      * destruct (H2 eq_refl) as (c & t & -> & EH). exists c, (t ++ WriteHex b). split; [reflexivity |]. change (c :: t ++ WriteHex b) with ((c :: t) ++ WriteHex b). rewrite (hexnum_app _ _ _ _ EH). apply WriteHex_value, Hb.
    + destruct skip; cbn [negb] in EN; [| rewrite orb_true_r in EN; discriminate]. destruct (H1 eq_refl) as [-> ->]. destruct (Z.eqb_spec b 0); [| discriminate].
      subst k1. apply (IH s true [48; 120] 0); [exact Hs | auto | discriminate | fold K; rewrite <- HA; clear - HV2 e; lia].
Qed.
Theorem C48_set : forall s, 0 <= s < 2 ^ 64 -> exists t, SetConstant s = Ok t /\ c_hex t = Some s.
Proof.
  intros s H. destruct (set_loop_spec 7 s true [48; 120] 0 ltac:(lia) ltac:(auto) ltac:(discriminate)) as (t & skip & E & H1 & H2); [change (8 * Z.of_nat 8) with 64; symmetry; apply Z.div_small; lia |].
  unfold SetConstant. change 64 with (8 * Z.of_nat 8). rewrite E. cbn [bind]. eexists. split; [reflexivity |]. destruct skip.
  - destruct (H1 eq_refl) as [-> ->]. reflexivity.
  - apply H2. reflexivity.
Qed.
Example C48_example : WriteInt (-2147483648) = Ok [40; 45; 50; 49; 52; 55; 52; 56; 51; 54; 52; 55; 45; 49; 41] /\ WriteInt 4294967296 = Ok [52; 50; 57; 52; 57; 54; 55; 50; 57; 54; 76; 76] /\
  IntLiteral 5 8 = Ok [40; 40; 73; 78; 84; 54; 52; 41; 40; 53; 41; 41] /\ SetConstant 513 = Ok [48; 120; 48; 50; 48; 49].
Proof. vm_compute. auto. Qed.

(** ** C49: C characters and strings *)
Definition octal (c : Z) : bool := (48 <=? c) && (c <=? 55).
(** The characters of a C string literal behind the opening quote (C11 6.4.5, 6.4.4.4): a backslash and up to three octal digits, or an escaped backslash, quote or
    question mark, or a printable character.  None if the literal is not closed at the end of the text or holds something else. *)
Fixpoint c_chars (fuel : nat) (t : list Z) : option (list Z) :=
  match fuel with
  | O => None
  | S f =>
      let add (v : Z) (t : list Z) := match c_chars f t with Some s => Some (v :: s) | None => None end in
      match t with
      | [] => None
      | 34 :: t => match t with [] => Some [] | _ => None end
      | 92 :: c :: t =>
          if octal c then
            match t with
            | c2 :: t2 =>
                if octal c2 then
                  match t2 with
                  | c3 :: t3 => if octal c3 then (let v := 64 * (c - 48) + 8 * (c2 - 48) + (c3 - 48) in if v <=? 255 then add v t3 else None) else add (8 * (c - 48) + (c2 - 48)) t2
                  | [] => None
                  end
                else add (c - 48) t
            | [] => None
            end
          else if (c =? 92) || (c =? 34) || (c =? 39) || (c =? 63) then add c t else None
      | c :: t => if (32 <=? c) && (c <=? 126) && negb (c =? 92) then add c t else None
      end
  end.
Definition c_string (t : list Z) : option (list Z) := match t with 34 :: r => c_chars (length t) r | _ => None end.
(** No trigraph can start in the text: it holds no two question marks in a row. *)
Fixpoint no_trigraph (t : list Z) : Prop := match t with a :: ((b :: _) as r) => ~ (a = 63 /\ b = 63) /\ no_trigraph r | _ => True end.
(** A C character constant, or a hexadecimal literal. *)
Definition c_char (t : list Z) : option Z :=
  match t with
  | [39; 92; c; 39] => if (c =? 92) || (c =? 34) || (c =? 39) || (c =? 63) then Some c else None
  | [39; c; 39] => if (32 <=? c) && (c <=? 126) && negb (c =? 92) && negb (c =? 39) then Some c else None
  | _ => c_hex t
  end.
Theorem C49_character : forall c, 0 <= c <= 255 -> c_char (CharacterLiteral c) = Some c.
Proof.
  intros c H. assert (A : forallb (fun n => match c_char (CharacterLiteral (Z.of_nat n)) with Some v => v =? Z.of_nat n | None => false end) (seq 0 256) = true) by (vm_compute; reflexivity).
  rewrite forallb_forall in A. specialize (A (Z.to_nat c) ltac:(apply in_seq; lia)). rewrite Z2Nat.id in A by lia. destruct (c_char (CharacterLiteral c)) as [v |]; [| discriminate].
  apply Z.eqb_eq in A. subst. reflexivity.
Qed.
(** One character of a string, whatever follows. *)
Lemma chars_step : forall c, is_byte c -> forall f t, c_chars (S f) (string_char c ++ t) = match c_chars f t with Some s => Some (c :: s) | None => None end.
Proof.
  intros c Hc f t. unfold is_byte in Hc. unfold string_char. destruct (Z.ltb_spec c 32) as [L | L]; [| destruct (Z.gtb_spec c 126) as [G | G]]; cbn [orb].
  - cbn [app c_chars]. unfold octal. destruct (Z.leb_spec 48 (48 + c / 64)), (Z.leb_spec (48 + c / 64) 55), (Z.leb_spec 48 (48 + c mod 64 / 8)), (Z.leb_spec (48 + c mod 64 / 8) 55),
      (Z.leb_spec 48 (48 + c mod 64 mod 8)), (Z.leb_spec (48 + c mod 64 mod 8) 55); try lia. cbn [andb].
    replace (64 * (48 + c / 64 - 48) + 8 * (48 + c mod 64 / 8 - 48) + (48 + c mod 64 mod 8 - 48)) with c by lia. destruct (Z.leb_spec c 255); [reflexivity | lia].
  - cbn [app c_chars]. unfold octal. destruct (Z.leb_spec 48 (48 + c / 64)), (Z.leb_spec (48 + c / 64) 55), (Z.leb_spec 48 (48 + c mod 64 / 8)), (Z.leb_spec (48 + c mod 64 / 8) 55),
      (Z.leb_spec 48 (48 + c mod 64 mod 8)), (Z.leb_spec (48 + c mod 64 mod 8) 55); try lia. cbn [andb].
    replace (64 * (48 + c / 64 - 48) + 8 * (48 + c mod 64 / 8 - 48) + (48 + c mod 64 mod 8 - 48)) with c by lia. destruct (Z.leb_spec c 255); [reflexivity | lia].
  - destruct (Z.eqb_spec c 92) as [-> | N1]; [reflexivity |]. destruct (Z.eqb_spec c 34) as [-> | N2]; [reflexivity |]. destruct (Z.eqb_spec c 63) as [-> | N3]; [reflexivity |]. cbn [orb app].
    assert (E : c_chars (S f) (c :: t) = if (32 <=? c) && (c <=? 126) && negb (c =? 92) then match c_chars f t with Some s => Some (c :: s) | None => None end else None).
    { cbn [c_chars]. destruct c as [| p | p]; try lia. do 7 (destruct p; try reflexivity; try lia). }
    rewrite E. destruct (Z.leb_spec 32 c), (Z.leb_spec c 126), (Z.eqb_spec c 92); try lia. reflexivity.
Qed.
Lemma chars_all : forall s f, Forall is_byte s -> (length s < f)%nat -> c_chars f (flat_map string_char s ++ [34]) = Some s.
Proof.
  induction s as [| c s IH]; intros f HF L; (destruct f as [| f]; [lia |]); [reflexivity |]. inversion HF as [| ? ? Hc HF']; subst. cbn [flat_map]. rewrite <- app_assoc, chars_step by exact Hc.
  rewrite IH; [reflexivity | assumption | cbn [length] in L; lia].
Qed.
Lemma string_char_len : forall s, (length s <= length (flat_map string_char s))%nat.
Proof.
  induction s as [| c s IH]; [cbn; lia |]. cbn [flat_map]. rewrite app_length. cbn [length]. assert (1 <= length (string_char c))%nat; [| lia].
  unfold string_char. destruct ((c <? 32) || (c >? 126)); [cbn; lia |]. rewrite app_length. cbn [length]. lia.
Qed.
Lemma string_char_last : forall c, is_byte c -> exists a p, string_char c = a :: p /\ a <> 63 /\ no_trigraph (string_char c).
Proof.
  intros c Hc. unfold is_byte in Hc. unfold string_char. destruct (Z.ltb_spec c 32); [| destruct (Z.gtb_spec c 126)]; cbn [orb].
  - do 2 eexists. split; [reflexivity |]. split; [lia |]. cbn [no_trigraph]. lia.
  - do 2 eexists. split; [reflexivity |]. split; [lia |]. cbn [no_trigraph]. lia.
  - destruct (Z.eqb_spec c 92) as [-> |]; [| destruct (Z.eqb_spec c 34) as [-> |]; [| destruct (Z.eqb_spec c 63) as [-> |]]]; cbn [orb app]; do 2 eexists; (split; [reflexivity |]); cbn [no_trigraph]; lia.
Qed.
Lemma no_trigraph_app : forall p a r, no_trigraph p -> no_trigraph (a :: r) -> a <> 63 -> no_trigraph (p ++ a :: r).
Proof.
  induction p as [| x p IH]; intros a r H1 H2 Ha; [exact H2 |]. destruct p as [| y p]; cbn [app] in *.
  - cbn [no_trigraph]. split; [lia | exact H2].
  - destruct H1 as [H1 H1']. split; [exact H1 |]. apply (IH a r H1' H2 Ha).
Qed.
Theorem C49_string : forall s, Forall is_byte s -> c_string (StringLiteral s) = Some s /\ no_trigraph (StringLiteral s).
Proof.
  intros s HF. split.
  - unfold StringLiteral, c_string. cbn [app]. apply chars_all; [exact HF |]. cbn [length]. rewrite app_length. pose proof (string_char_len s). cbn [length]. lia.
  - unfold StringLiteral. cbn [app]. assert (G : exists a r, flat_map string_char s ++ [34] = a :: r /\ a <> 63 /\ no_trigraph (flat_map string_char s ++ [34])).
    { induction HF as [| c s Hc HF IH]; [exists 34, []; split; [reflexivity | split; [lia | exact I]] |]. destruct IH as (a & r & E & Ha & HT). cbn [flat_map]. rewrite <- app_assoc.
      destruct (string_char_last c Hc) as (a' & p & E' & Ha' & HT'). exists a', (p ++ flat_map string_char s ++ [34]). rewrite E'. split; [reflexivity |]. split; [exact Ha' |]. rewrite <- E'. rewrite E. apply no_trigraph_app; [exact HT' | rewrite <- E; exact HT | exact Ha]. }
    destruct G as (a & r & E & Ha & HT). rewrite E in *. cbn [no_trigraph]. split; [lia | exact HT].
Qed.
Example C49_example : StringLiteral [97; 1; 55; 63; 63; 61; 34; 200] = [34; 97; 92; 48; 48; 49; 55; 92; 63; 92; 63; 61; 92; 34; 92; 51; 49; 48; 34] /\ Forall is_byte [97; 1; 55; 63; 63; 61; 34; 200].
Proof. split; [reflexivity |]. unfold is_byte. repeat constructor; lia. Qed.

Print Assumptions C41_smallest.
Print Assumptions C41_longer.
Print Assumptions C41_shorter.
Print Assumptions C41_limits.
Print Assumptions C48_value.
Print Assumptions C48_literal.
Print Assumptions C48_set.
Print Assumptions C49_character.
Print Assumptions C49_string.
