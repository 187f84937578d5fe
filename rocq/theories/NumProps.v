(** C72: integer and character expressions have in the compiled program the value they have in the language. *)
From Verif Require Import Base ArithModel ArithProofs LitModel LitProps OpsProps FoldModel FoldProps.
From Verif Require StrengthModel StrengthProps.
From Verif Require Import NumSpec NumModel.

Ltac conc := unfold range, in_int, min_int, max_int, limit, MINI, MAXI in *; repeat first
  [ progress change (8 * 1 - 1) with 7 in * | progress change (8 * 2 - 1) with 15 in * | progress change (8 * 4 - 1) with 31 in * | progress change (8 * 8 - 1) with 63 in *
  | progress change (8 - 1) with 7 in * | progress change (16 - 1) with 15 in * | progress change (32 - 1) with 31 in * | progress change (64 - 1) with 63 in *
  | progress change (2 ^ 7) with 128 in * | progress change (2 ^ 15) with 32768 in * | progress change (2 ^ 31) with 2147483648 in * | progress change (2 ^ 63) with 9223372036854775808 in * ].

Lemma range_64 : forall t v, legal_type t -> range t v -> in_int 64 v.
Proof. intros [s|] v L R; cbn [legal_type] in L; [destruct L as [->|[->|[->| ->]]]|]; conc; lia. Qed.
Lemma smallest_spec : forall v, in_int 64 v -> NumSpec.int_size (smallest v) /\ range (TInt (smallest v)) v /\ forall s, NumSpec.int_size s -> range (TInt s) v -> smallest v <= s.
Proof.
  intros v H. unfold smallest, rangeb. 
  destruct (Z.leb_spec (- 2 ^ (8 * 1 - 1)) v), (Z.ltb_spec v (2 ^ (8 * 1 - 1))), (Z.leb_spec (- 2 ^ (8 * 2 - 1)) v), (Z.ltb_spec v (2 ^ (8 * 2 - 1))), (Z.leb_spec (- 2 ^ (8 * 4 - 1)) v), (Z.ltb_spec v (2 ^ (8 * 4 - 1)));
    cbn [andb]; conc; try (exfalso; lia); (split; [unfold NumSpec.int_size; lia|split; [lia|]]); intros s [->|[->|[->| ->]]] R; conc; lia.
Qed.
Lemma good_num : forall v r, good v r -> num r = Ok (Some (KConst v (TInt (smallest v)))).
Proof.
  intros v r (s & -> & H64 & I & F & M). unfold num. cbn [bind]. destruct (smallest_spec v H64) as (A & B & C).
  assert (s = smallest v) as -> by (specialize (C s I F); specialize (M _ A B); lia). reflexivity.
Qed.
Lemma SetIntType_smallest : forall v, in_int 64 v -> SetIntType v = Ok (smallest v).
Proof.
  intros v H. destruct (C41_smallest v H) as (s & E & I & F & M). destruct (smallest_spec v H) as (A & B & C). rewrite E. f_equal.
  specialize (C s I F); specialize (M _ A B); lia.
Qed.

(** ** C values *)
Definition fit (c : cty) (v : Z) : Prop := match c with CS w => (w = 8 \/ w = 16 \/ w = 32 \/ w = 64) /\ in_int w v | CU8 => 0 <= v < 256 end.
Lemma fit_pw : forall c v, fit c v -> (pw c = 32 \/ pw c = 64) /\ in_int (pw c) v.
Proof. intros [w|] v F; cbn [fit pw] in *; [destruct F as [[->|[->|[->| ->]]] F]|]; (split; [cbn; auto|]); [change (Z.max 32 8) with 32|change (Z.max 32 16) with 32|change (Z.max 32 32) with 32|change (Z.max 32 64) with 64|]; conc; lia. Qed.
Lemma fit_64 : forall c v, fit c v -> in_int 64 v.
Proof. intros c v F. destruct (fit_pw c v F) as [[E|E] I]; rewrite E in I; conc; lia. Qed.
Lemma literal_fit : forall v, in_int 64 v -> fit (literal v) v.
Proof. intros v H. unfold literal. destruct (in_intb 32 v) eqn:E; cbn [fit]; (split; [lia|]); [apply in_intb_iff, E|exact H]. Qed.

Section Nodes.
Variable ranchk : bool.
Variable env : nat -> Z.
Notation cev := (cev ranchk env).

(** What holds of a node built for an expression of value v: its type has the value, and the C written for it computes it. *)
Definition base (n : node) (v : Z) : Prop :=
  range (typ n) v /\ legal_type (typ n) /\ exists c, cev n = Ok (c, v) /\ fit c v /\ (const_of n = None -> typ n = TInt 8 -> c = CS 64).
Fixpoint sound (n : node) (v : Z) : Prop :=
  base n v /\ match n with KConst w _ => w = v | KConv a _ => const_of a = None /\ sound a v | _ => True end.
Lemma sound_base : forall n v, sound n v -> base n v.
Proof. intros n v H; destruct n; exact (proj1 H). Qed.
Lemma const_sound : forall v t, range t v -> legal_type t -> sound (KConst v t) v.
Proof.
  intros v t R L. split; [|reflexivity]. split; [exact R|]. split; [exact L|]. exists (literal v). split; [reflexivity|]. split; [apply literal_fit, (range_64 t); assumption|discriminate].
Qed.
Lemma const_value : forall n v c, sound n v -> const_of n = Some c -> c = v /\ n = KConst v (typ n).
Proof. intros [w t| | | | | | | |] v c H E; try discriminate. cbn in H, E. destruct H as [_ ->]. injection E as ->. split; reflexivity. Qed.

Lemma SizeCast_ok : forall from to call c v, NumSpec.int_size from -> NumSpec.int_size to -> range (TInt from) v \/ (from = 1 /\ 0 <= v < 256) -> range (TInt to) v -> fit c v -> (from = 8 -> c = CS 64) ->
  exists c', SizeCast ranchk from to call c v = Ok (c', v) /\ fit c' v /\ (to = 8 -> c' = CS 64).
Proof.
  intros from to call c v If It Rf Rt F C8. unfold SizeCast. destruct ((to <? from) && ranchk) eqn:E.
  - apply andb_prop in E as [E _]. apply Z.ltb_lt in E. assert (T : 8 * to = 8 \/ 8 * to = 16 \/ 8 * to = 32) by (destruct If as [->|[->|[->| ->]]], It as [->|[->|[->| ->]]]; lia).
    assert (U : 2 ^ (8 * to - 1) = max_int (8 * to) + 1) by (unfold max_int; lia).
    assert (I : in_intb (8 * to) v = true) by (apply in_intb_iff; exact Rt).
    assert (W : in_int 32 v) by (destruct It as [->|[->|[->| ->]]]; conc; lia).
    assert (R : (if call then SHORTF (Z.max (pw c) (pw (literal (2 ^ (8 * to - 1))))) v (2 ^ (8 * to - 1)) else SHORT_inline v (2 ^ (8 * to - 1))) = Ok v).
    { rewrite U. destruct call.
      - destruct (fit_pw c v F) as [[P|P] Q]; rewrite P in *; (rewrite SHORTF_exact; [rewrite I; reflexivity| | | exact T|]);
          destruct It as [->|[->|[->| ->]]]; cbn; try lia; conc; cbn; try lia; auto.
      - rewrite SHORT_inline_exact; [rewrite I; reflexivity|exact (fit_64 c v F)|exact T]. }
    rewrite R. cbn [bind]. exists (CS 32). split; [reflexivity|]. split; [cbn; split; [lia|exact W]|]. destruct It as [->|[->|[->| ->]]]; lia.
  - destruct (negb (from =? to) && ((from >? 4) || negb (to =? 4))) eqn:E2.
    + exists (CS (8 * to)). rewrite wrap_s_id; [|destruct It as [->|[->|[->| ->]]]; lia|exact Rt]. split; [reflexivity|]. split; [|intros ->; reflexivity].
      cbn [fit]. split; [destruct It as [->|[->|[->| ->]]]; lia|exact Rt].
    + exists c. split; [reflexivity|]. split; [exact F|]. intros ->. apply C8. destruct If as [->|[->|[->| ->]]]; cbn in E2; try discriminate; reflexivity.
Qed.
Lemma conv_sound : forall a t v, sound a v -> const_of a = None -> legal_type t -> range t v -> (t = TChar -> typ a <> TChar) -> sound (KConv a t) v.
Proof.
  intros a t v S N L R D. split; [|split; assumption]. split; [exact R|]. split; [exact L|]. destruct (sound_base a v S) as (Ra & La & c & E & F & C8). cbn [NumModel.cev]. rewrite E. cbn [bind].
  destruct t as [to|].
  - destruct (SizeCast_ok (size (typ a)) to (SideEffects a) c v) as (c' & E' & F' & C'); try assumption.
    + destruct (typ a); [exact La|]. left. reflexivity.
    + destruct (typ a); [left; exact Ra|]. right. split; [reflexivity|exact Ra].
    + intro S8. apply C8; [exact N|]. destruct (typ a); cbn in S8; [congruence|lia].
    + exists c'. split; [exact E'|]. split; [exact F'|]. intros _ T. cbn [typ] in T. injection T as ->. auto.
  - exists CU8. split; [|split; [exact R|discriminate]]. cbn [range] in R. destruct ranchk.
    + assert ((if SideEffects a then CHRF v else CHR_inline v) = Ok v) as ->; [|reflexivity]. destruct (SideEffects a).
      * rewrite CHRF_exact by (exact (fit_64 c v F)). rewrite (proj2 (Z.leb_le 0 v)), (proj2 (Z.ltb_lt v 256)) by lia. reflexivity.
      * rewrite CHR_inline_nonneg by lia. rewrite (proj2 (Z.ltb_lt v 256)) by lia. reflexivity.
    + rewrite wrap_u_id; [reflexivity|]. unfold in_uint. change (2 ^ 8) with 256. lia.
Qed.
Lemma same_eq : forall a b, same a b = true <-> a = b.
Proof. intros [s|] [s'|]; cbn; try (split; congruence). rewrite Z.eqb_eq. split; congruence. Qed.
Definition is_const (n : node) : bool := match const_of n with Some _ => true | None => false end.
Lemma Convert_ok : forall n v t, sound n v -> legal_type t -> range t v -> (t = TChar -> typ n <> TChar) ->
  exists n', Convert n t = Ok (Some n') /\ typ n' = t /\ sound n' v /\ is_const n' = is_const n /\ SideEffects n' = SideEffects n.
Proof.
  intros n v t S L R D.
  assert (G : is_const n = false -> exists n', Ok (Some (KConv n t)) = Ok (Some n') /\ typ n' = t /\ sound n' v /\ is_const n' = is_const n /\ SideEffects n' = SideEffects n).
  { intros N. exists (KConv n t). split; [reflexivity|]. split; [reflexivity|]. split; [|split; [rewrite N; reflexivity|reflexivity]]. apply conv_sound; try assumption. unfold is_const in N. destruct (const_of n); [discriminate|reflexivity]. }
  destruct n as [w tn| |a tn| | | | | |]; try (apply G; reflexivity).
  - destruct S as [B ->]. destruct B as (Rn & Ln & _). cbn [typ] in *.
    assert (O : exists n', Ok (Some (KConst v t)) = Ok (Some n') /\ typ n' = t /\ sound n' v /\ is_const n' = true /\ SideEffects n' = false).
    { exists (KConst v t). split; [reflexivity|]. split; [reflexivity|]. split; [apply const_sound; assumption|]. split; reflexivity. }
    cbn [Convert]. destruct tn as [s|]; [|exact O]. destruct t as [d|].
    + destruct (s >? d) eqn:E; [|exact O]. pose proof (range_64 _ _ Ln Rn) as H64. rewrite SetIntType_smallest by exact H64. cbn [bind].
      destruct (smallest_spec v H64) as (_ & _ & M). specialize (M d L R). destruct (Z.gtb_spec (smallest v) d); [lia|]. exact O.
    + cbn [range] in R. replace ((0 >? v) || (v >? 255)) with false by lia. exact O.
  - cbn [Convert]. destruct ((form (typ a) <? form tn) || (form tn >? form t)) eqn:E; [|apply G; reflexivity].
    destruct S as (B & N & Sa). destruct (same (typ a) t) eqn:Q.
    + apply same_eq in Q. exists a. split; [reflexivity|]. split; [exact Q|]. split; [exact Sa|]. split; [unfold is_const; rewrite N; reflexivity|reflexivity].
    + exists (KConv a t). split; [reflexivity|]. split; [reflexivity|]. split; [|split; reflexivity]. apply conv_sound; try assumption. intros -> T. rewrite T in Q. discriminate.
Qed.
Lemma unify_ok : forall z y x v s s', sound z x -> sound y v -> typ z = TInt s -> typ y = TInt s' ->
  exists z' y', unify z y = Ok (Some (z', y')) /\ typ z' = TInt (Z.max s s') /\ typ y' = TInt (Z.max s s') /\ sound z' x /\ sound y' v /\
    is_const z' = is_const z /\ is_const y' = is_const y /\ SideEffects z' = SideEffects z /\ SideEffects y' = SideEffects y.
Proof.
  intros z y x v s s' Sz Sy Tz Ty. destruct (sound_base z x Sz) as (Rz & Lz & _). destruct (sound_base y v Sy) as (Ry & Ly & _). rewrite Tz in *. rewrite Ty in *. cbn [legal_type] in *.
  unfold unify. rewrite Tz, Ty. cbn [same]. destruct (Z.eqb_spec s s') as [->|N].
  - rewrite Z.max_id. exists z, y. repeat split; assumption.
  - assert (Mono : forall a b u, NumSpec.int_size a -> NumSpec.int_size b -> a <= b -> range (TInt a) u -> range (TInt b) u).
    { intros a b u [->|[->|[->| ->]]] [->|[->|[->| ->]]] M U; conc; lia. }
    destruct (Z.ltb_spec s' s).
    + rewrite Z.max_l by lia. destruct (Convert_ok y v (TInt s) Sy Lz) as (y' & E & T & S & C & F); [apply (Mono s' s); [assumption..|lia|assumption]|discriminate|].
      rewrite E. cbn [on bind]. exists z, y'. repeat split; assumption.
    + rewrite Z.max_r by lia. destruct (Convert_ok z x (TInt s') Sz Ly) as (z' & E & T & S & C & F); [apply (Mono s s'); [assumption..|lia|assumption]|discriminate|].
      rewrite E. cbn [on bind]. exists z', y. repeat split; assumption.
Qed.

Definition ap (op : binop) (x y : Z) : Z := match op with Add => x + y | Sub => x - y | Mul => x * y | Div => x / y | Mod => x mod y end.
Definition safe (op : binop) (x y : Z) : Prop :=
  match op with
  | Div => y <> 0 /\ Z.abs x <= limit /\ Z.abs y <= limit /\ (Z.abs x + Z.abs y <= limit \/ (x < 0 <-> y < 0))
  | Mod => y <> 0 /\ Z.abs x <= limit /\ Z.abs y <= limit
  | _ => True
  end.
Lemma DIV_ok : forall w x y, w = 32 \/ w = 64 -> in_int w x -> in_int w y -> safe Div x y -> DIV_inline w x y = Ok (x / y) /\ SYSTEM_DIV x y = Ok (x / y).
Proof.
  intros w x y W Hx Hy (N & A & B & C). rewrite DIV_inline_eq by (try assumption; lia).
  assert (X : in_int 64 x) by (destruct W as [->| ->]; conc; lia). assert (Y : in_int 64 y) by (destruct W as [->| ->]; conc; lia).
  destruct (proj1 (SYSTEM_DIV_defined x y X Y N)) as (q & E); [unfold div_safe; conc; lia|]. rewrite E. rewrite (SYSTEM_DIV_floor x y q E N). split; reflexivity.
Qed.
Lemma MOD_ok : forall w x y, w = 32 \/ w = 64 -> in_int w x -> in_int w y -> safe Mod x y -> MOD_inline w x y = Ok (x mod y) /\ SYSTEM_MOD x y = Ok (x mod y).
Proof.
  intros w x y W Hx Hy (N & A & B). rewrite MOD_inline_eq by (try assumption; lia).
  assert (X : in_int 64 x) by (destruct W as [->| ->]; conc; lia). assert (Y : in_int 64 y) by (destruct W as [->| ->]; conc; lia).
  destruct (proj1 (SYSTEM_MOD_defined x y X Y N)) as (q & E); [unfold mod_safe; conc; lia|]. rewrite E. rewrite (SYSTEM_MOD_floor x y q E N). split; reflexivity.
Qed.
Lemma size_range : forall s v w, NumSpec.int_size s -> range (TInt s) v -> w = 32 \/ w = 64 -> (s = 8 -> w = 64) -> in_int w v.
Proof. intros s v w [->|[->|[->| ->]]] R [->| ->] E; conc; lia. Qed.
Lemma ash_ok : forall x k, -63 <= k <= 63 -> (0 <= k -> in_int 64 (x * 2 ^ k)) -> ASH x k = Ok (if 0 <=? k then x * 2 ^ k else x / 2 ^ (- k)).
Proof. intros x k H I. rewrite ASH_floor by exact H. destruct (Z.leb_spec 0 k); [rewrite wrap_s_id; [reflexivity|lia|auto]|reflexivity]. Qed.
(** A result computed in a C type wide enough for the node's type. *)
Lemma result : forall n s v c, (forall w t, n <> KConst w t) -> (forall a t, n <> KConv a t) -> typ n = TInt s -> NumSpec.int_size s -> range (TInt s) v -> cev n = Ok (c, v) -> fit c v -> (s = 8 -> c = CS 64) -> sound n v.
Proof.
  intros n s v c N1 N2 T I R E F C. assert (B : base n v). { split; [rewrite T; exact R|]. split; [rewrite T; exact I|]. exists c. split; [exact E|]. split; [exact F|]. intros _ T8. apply C. congruence. }
  destruct n; try (split; [exact B|exact I]); first [edestruct N1; reflexivity | edestruct N2; reflexivity | split; [exact B|auto]].
Qed.
Lemma bin_sound : forall op z y x v s, sound z x -> sound y v -> typ z = TInt s -> typ y = TInt s -> is_const z && is_const y = false -> safe op x v -> range (TInt s) (ap op x v) ->
  sound (KBin op z y (TInt s)) (ap op x v).
Proof.
  intros op z y x v s Sz Sy Tz Ty NC D R. destruct (sound_base z x Sz) as (Rz & Lz & ca & Ea & Fa & Ca). destruct (sound_base y v Sy) as (Ry & Ly & cb & Eb & Fb & Cb).
  rewrite Tz in *. rewrite Ty in *. cbn [legal_type] in Lz. destruct (fit_pw ca x Fa) as [Pa Ia]. destruct (fit_pw cb v Fb) as [Pb Ib].
  assert (W : (Z.max (pw ca) (pw cb) = 32 \/ Z.max (pw ca) (pw cb) = 64) /\ in_int (Z.max (pw ca) (pw cb)) x /\ in_int (Z.max (pw ca) (pw cb)) v /\ (s = 8 -> Z.max (pw ca) (pw cb) = 64)).
  { split; [destruct Pa as [->| ->], Pb as [->| ->]; cbn; auto|]. split; [|split].
    - destruct Pa as [P|P], Pb as [Q|Q]; rewrite P, Q in *; cbn; conc; lia.
    - destruct Pa as [P|P], Pb as [Q|Q]; rewrite P, Q in *; cbn; conc; lia.
    - intros ->. unfold is_const in NC. destruct (const_of z); [destruct (const_of y); [discriminate|]|].
      + rewrite (Cb eq_refl eq_refl) in *. cbn in *. destruct Pa as [->| ->]; reflexivity.
      + rewrite (Ca eq_refl eq_refl) in *. cbn in *. destruct Pb as [->| ->]; reflexivity. }
  set (w := Z.max (pw ca) (pw cb)) in *. destruct W as (W1 & W2 & W3 & W4). pose proof (size_range s _ w Lz R W1 W4) as IW.
  assert (FW : fit (CS w) (ap op x v)) by (cbn [fit]; split; [destruct W1 as [->| ->]; auto|exact IW]).
  assert (F64 : fit (CS 64) (ap op x v)) by (cbn [fit]; split; [auto|exact (range_64 (TInt s) _ Lz R)]).
  assert (F32 : s <= 4 -> in_int 32 (ap op x v)) by (intro; apply (size_range s); auto; lia).
  assert (C8 : s = 8 -> CS w = CS 64) by (intros E8; rewrite (W4 E8); reflexivity).
  assert (CUT : exists c, (if size (TInt s) <=? 4 then (CS 32, wrap_s 32 (ap op x v)) else (CS 64, ap op x v)) = (c, ap op x v) /\ fit c (ap op x v) /\ (s = 8 -> c = CS 64)).
  { cbn [size]. destruct (Z.leb_spec s 4).
    - exists (CS 32). rewrite wrap_s_id; [|lia|auto]. split; [reflexivity|]. split; [split; [auto|auto]|lia].
    - exists (CS 64). auto. }
  destruct CUT as (cc & EC & FC & C8c).
  destruct op; cbn [ap] in *.
  - apply (result _ s _ (CS w)); auto; try discriminate. cbn [NumModel.cev]. rewrite Ea, Eb. cbn [bind]. fold w. rewrite chk_ok by exact IW. reflexivity.
  - apply (result _ s _ (CS w)); auto; try discriminate. cbn [NumModel.cev]. rewrite Ea, Eb. cbn [bind]. fold w. rewrite chk_ok by exact IW. reflexivity.
  - apply (result _ s _ (CS w)); auto; try discriminate. cbn [NumModel.cev]. rewrite Ea, Eb. cbn [bind]. fold w. rewrite chk_ok by exact IW. reflexivity.
  - destruct (DIV_ok w x v W1 W2 W3 D) as [D1 D2]. destruct (SideEffects z || SideEffects y) eqn:SE.
    + apply (result _ s _ cc); auto; try discriminate. cbn [NumModel.cev]. rewrite Ea, Eb. cbn [bind]. rewrite SE, D2. cbn [bind]. rewrite EC. reflexivity.
    + apply (result _ s _ (CS 64)); auto; try discriminate. cbn [NumModel.cev]. rewrite Ea, Eb. cbn [bind]. fold w. rewrite SE, D1. reflexivity.
  - destruct (MOD_ok w x v W1 W2 W3 D) as [D1 D2].
    apply (result _ s _ cc); auto; try discriminate. cbn [NumModel.cev]. rewrite Ea, Eb. cbn [bind]. fold w.
    assert ((if SideEffects z || SideEffects y then SYSTEM_MOD x v else MOD_inline w x v) = Ok (x mod v)) as -> by (destruct (SideEffects z || SideEffects y); assumption). cbn [bind]. rewrite EC. reflexivity.
Qed.
Lemma ash_sound : forall z y x k s, sound z x -> sound y k -> typ z = TInt s -> -63 <= k <= 63 -> range (TInt s) (if 0 <=? k then x * 2 ^ k else x / 2 ^ (- k)) ->
  sound (KAsh z y (TInt s)) (if 0 <=? k then x * 2 ^ k else x / 2 ^ (- k)).
Proof.
  intros z y x k s Sz Sy Tz K R. destruct (sound_base z x Sz) as (Rz & Lz & ca & Ea & _). destruct (sound_base y k Sy) as (_ & _ & cb & Eb & _). rewrite Tz in *. cbn [legal_type] in Lz.
  apply (result _ s _ (CS 64)); auto; try discriminate.
  - cbn [NumModel.cev]. rewrite Ea, Eb. cbn [bind]. rewrite ash_ok; [reflexivity|exact K|]. intros P. rewrite (proj2 (Z.leb_le 0 k) P) in R. exact (range_64 (TInt s) _ Lz R).
  - split; [auto|]. exact (range_64 (TInt s) _ Lz R).
Qed.
Lemma shift_sound : forall z x k s t, sound z x -> typ z = TInt s -> -62 <= k <= 62 -> range (TInt s) (if 0 <=? k then x * 2 ^ k else x / 2 ^ (- k)) ->
  sound (KAsh z (KConst k t) (TInt s)) (if 0 <=? k then x * 2 ^ k else x / 2 ^ (- k)).
Proof.
  intros z x k s t Sz Tz K R. destruct (sound_base z x Sz) as (Rz & Lz & ca & Ea & _). rewrite Tz in *. cbn [legal_type] in Lz.
  apply (result _ s _ (CS 64)); auto; try discriminate.
  - cbn [NumModel.cev]. rewrite Ea. cbn [bind]. rewrite ash_ok; [reflexivity|lia|]. intros P. rewrite (proj2 (Z.leb_le 0 k) P) in R. exact (range_64 (TInt s) _ Lz R).
  - split; [auto|]. exact (range_64 (TInt s) _ Lz R).
Qed.
Lemma msk_sound : forall z x k s, sound z x -> is_const z = false -> typ z = TInt s -> 0 <= k <= 62 -> range (TInt s) (x mod 2 ^ k) -> sound (KMsk z (- 2 ^ k) (TInt s)) (x mod 2 ^ k).
Proof.
  intros z x k s Sz NC Tz K R. destruct (sound_base z x Sz) as (Rz & Lz & ca & Ea & Fa & Ca). rewrite Tz in *. cbn [legal_type] in Lz.
  assert (P : 0 < 2 ^ k) by (apply Z.pow_pos_nonneg; lia). assert (P2 : 2 ^ k <= 2 ^ 62) by (apply Z.pow_le_mono_r; lia). change (2 ^ 62) with 4611686018427387904 in P2.
  assert (I64 : in_int 64 (- 2 ^ k)) by (conc; lia). destruct (fit_pw ca x Fa) as [Pa Ia]. destruct (fit_pw _ _ (literal_fit _ I64)) as [Pb _].
  apply (result _ s _ (CS (Z.max (pw ca) (pw (literal (- 2 ^ k)))))); auto; try discriminate.
  - cbn [NumModel.cev]. rewrite Ea. cbn [bind]. rewrite StrengthProps.mask_mod by lia. reflexivity.
  - split; [destruct Pa as [->| ->], Pb as [->| ->]; cbn; auto|]. apply (size_range s); auto; [destruct Pa as [->| ->], Pb as [->| ->]; cbn; auto|].
    intros ->. unfold is_const in NC. destruct (const_of z); [discriminate|]. rewrite (Ca eq_refl eq_refl). cbn [pw]. destruct Pb as [->| ->]; reflexivity.
  - intros ->. unfold is_const in NC. destruct (const_of z); [discriminate|]. rewrite (Ca eq_refl eq_refl). cbn [pw]. destruct Pb as [->| ->]; reflexivity.
Qed.

Lemma is_true : forall n v c, sound n v -> (is c n = true <-> is_const n = true /\ v = c).
Proof.
  intros n v c S. unfold is, is_const. destruct (const_of n) as [k|] eqn:E; [|split; [discriminate|intros [? _]; discriminate]].
  destruct (const_value n v k S E) as [-> _]. rewrite Z.eqb_eq. tauto.
Qed.
Lemma reduce_ok : forall ss op z y x v s, sound z x -> sound y v -> typ z = TInt s -> typ y = TInt s -> is_const z && is_const y = false -> safe op x v -> range (TInt s) (ap op x v) ->
  exists n, reduce ss op z y (TInt s) = Ok (Some n) /\ typ n = TInt s /\ sound n (ap op x v) /\
    is_const n = (match op with Mul => (is_const z && (x =? 0)) || (is_const y && (v =? 0)) | _ => false end) /\
    (SideEffects n = true -> SideEffects z || SideEffects y = true).
Proof.
  intros ss op z y x v s Sz Sy Tz Ty NC D R. pose proof (bin_sound op z y x v s Sz Sy Tz Ty NC D R) as SB.
  destruct (sound_base z x Sz) as (Rz & Lz & _). destruct (sound_base y v Sy) as (Ry & Ly & _). rewrite Tz in *. rewrite Ty in *.
  pose proof (range_64 _ _ Lz Rz) as X64. pose proof (range_64 _ _ Ly Ry) as V64.
  assert (PLAIN : exists n, Ok (Some (KBin op z y (TInt s))) = Ok (Some n) /\ typ n = TInt s /\ sound n (ap op x v) /\ is_const n = false /\ (SideEffects n = true -> SideEffects z || SideEffects y = true)).
  { exists (KBin op z y (TInt s)). split; [reflexivity|]. split; [reflexivity|]. split; [exact SB|]. split; [reflexivity|]. cbn [SideEffects]. auto. }
  assert (ZZ : ap op x v = x -> is_const z = false -> exists n, Ok (Some z) = Ok (Some n) /\ typ n = TInt s /\ sound n (ap op x v) /\ is_const n = false /\ (SideEffects n = true -> SideEffects z || SideEffects y = true)).
  { intros -> C. exists z. split; [reflexivity|]. split; [exact Tz|]. split; [exact Sz|]. split; [exact C|]. intros ->. reflexivity. }
  assert (YY : ap op x v = v -> is_const y = false -> exists n, Ok (Some y) = Ok (Some n) /\ typ n = TInt s /\ sound n (ap op x v) /\ is_const n = false /\ (SideEffects n = true -> SideEffects z || SideEffects y = true)).
  { intros -> C. exists y. split; [reflexivity|]. split; [exact Ty|]. split; [exact Sy|]. split; [exact C|]. intros ->. apply orb_true_r. }
  assert (SH : forall a u k, (a = z /\ u = x) \/ (a = y /\ u = v) -> -62 <= k <= 62 -> ap op x v = (if 0 <=? k then u * 2 ^ k else u / 2 ^ (- k)) ->
             exists n, Ok (Some (KAsh a (KConst k (TInt ss)) (TInt s))) = Ok (Some n) /\ typ n = TInt s /\ sound n (ap op x v) /\ is_const n = false /\ (SideEffects n = true -> SideEffects z || SideEffects y = true)).
  { intros a u k A K E. exists (KAsh a (KConst k (TInt ss)) (TInt s)). split; [reflexivity|]. split; [reflexivity|]. split; [rewrite E in *; apply shift_sound; [destruct A as [[-> ->]|[-> ->]]; assumption|destruct A as [[-> _]|[-> _]]; assumption|exact K|exact R]|].
    split; [reflexivity|]. cbn [SideEffects]. rewrite orb_false_r. destruct A as [[-> _]|[-> _]]; intros ->; [reflexivity|apply orb_true_r]. }
  unfold reduce. destruct op; cbn [ap] in *.
  - destruct (is 0 z) eqn:E1; [|destruct (is 0 y) eqn:E2; [|exact PLAIN]].
    + apply (is_true z x) in E1 as [E1 ->]; [|exact Sz]. apply YY; [lia|]. rewrite E1 in NC. exact NC.
    + apply (is_true y v) in E2 as [E2 ->]; [|exact Sy]. apply ZZ; [lia|]. rewrite E2, andb_true_r in NC. exact NC.
  - destruct (is 0 y) eqn:E2; [|exact PLAIN]. apply (is_true y v) in E2 as [E2 ->]; [|exact Sy]. apply ZZ; [lia|]. rewrite E2, andb_true_r in NC. exact NC.
  - destruct (const_of z) as [c|] eqn:Cz.
    + destruct (const_value z x c Sz Cz) as [-> Zz]. assert (is_const z = true) as Kz by (unfold is_const; rewrite Cz; reflexivity). rewrite Kz in *. cbn [andb] in NC. rewrite NC. cbn [andb orb]. rewrite orb_false_r.
      destruct (Z.eqb_spec x 1) as [->|N1]; [cbn [Z.eqb]; apply YY; [lia|exact NC]|]. destruct (Z.eqb_spec x 0) as [->|N0].
      * exists z. split; [reflexivity|]. split; [exact Tz|]. split; [exact Sz|]. split; [exact Kz|]. intros ->. reflexivity.
      * unfold power. destruct (StrengthProps.log_ok x X64) as (l & e & E). rewrite E. cbn [bind]. destruct (Z.eqb_spec l 1) as [->|NL]; [|exact PLAIN].
        destruct (StrengthProps.log_pow x _ X64 E eq_refl) as [Px Be]. cbn [fst snd] in *. apply (SH y v e); [auto|lia|]. rewrite (proj2 (Z.leb_le 0 e)) by lia. lia.
    + assert (is_const z = false) as Kz by (unfold is_const; rewrite Cz; reflexivity). rewrite Kz. cbn [andb orb]. destruct (const_of y) as [c|] eqn:Cy.
      * destruct (const_value y v c Sy Cy) as [-> Yy]. assert (is_const y = true) as Ky by (unfold is_const; rewrite Cy; reflexivity). rewrite Ky. cbn [andb].
        destruct (Z.eqb_spec v 1) as [->|N1]; [cbn [Z.eqb]; apply ZZ; [lia|exact Kz]|]. destruct (Z.eqb_spec v 0) as [->|N0].
        -- exists y. split; [reflexivity|]. split; [exact Ty|]. split; [rewrite Z.mul_0_r; exact Sy|]. split; [exact Ky|]. intros ->. apply orb_true_r.
        -- unfold power. destruct (StrengthProps.log_ok v V64) as (l & e & E). rewrite E. cbn [bind]. destruct (Z.eqb_spec l 1) as [->|NL]; [|exact PLAIN].
           destruct (StrengthProps.log_pow v _ V64 E eq_refl) as [Pv Be]. cbn [fst snd] in *. apply (SH z x e); [auto|lia|]. rewrite (proj2 (Z.leb_le 0 e)) by lia. congruence.
      * replace (is_const y) with false by (unfold is_const; rewrite Cy; reflexivity). exact PLAIN.
  - destruct (const_of y) as [c|] eqn:Cy; [|exact PLAIN]. destruct (const_value y v c Sy Cy) as [-> Yy]. assert (is_const y = true) as Ky by (unfold is_const; rewrite Cy; reflexivity). rewrite Ky, andb_true_r in NC.
    destruct (Z.eqb_spec v 0) as [->|N0]; [destruct D as [D _]; lia|]. destruct (Z.eqb_spec v 1) as [->|N1]; [apply ZZ; [apply Z.div_1_r|exact NC]|].
    unfold power. destruct (StrengthProps.log_ok v V64) as (l & e & E). rewrite E. cbn [bind]. destruct (Z.eqb_spec l 1) as [->|NL]; [|exact PLAIN].
    destruct (StrengthProps.log_pow v _ V64 E eq_refl) as [Pv Be]. cbn [fst snd] in *. apply (SH z x (- e)); [auto|lia|].
    destruct (Z.leb_spec 0 (- e)); [assert (e = 0) as -> by lia; change (2 ^ 0) with 1 in Pv; lia|]. rewrite Z.opp_involutive. congruence.
  - destruct (const_of y) as [c|] eqn:Cy; [|exact PLAIN]. destruct (const_value y v c Sy Cy) as [-> Yy]. assert (is_const y = true) as Ky by (unfold is_const; rewrite Cy; reflexivity). rewrite Ky, andb_true_r in NC.
    destruct (Z.eqb_spec v 0) as [->|N0]; [destruct D as [D _]; lia|].
    destruct (StrengthProps.log_ok v V64) as (l & e & E). rewrite E. cbn [bind]. destruct (Z.eqb_spec l 1) as [->|NL]; [|exact PLAIN].
    destruct (StrengthProps.log_pow v _ V64 E eq_refl) as [Pv Be]. cbn [fst snd] in *. rewrite StrengthProps.ash_m1 by lia. cbn [bind]. exists (KMsk z (- 2 ^ e) (TInt s)).
    split; [reflexivity|]. split; [reflexivity|]. split; [rewrite Pv in *; apply msk_sound; assumption|]. split; [reflexivity|]. cbn [SideEffects]. intros ->. reflexivity.
Qed.
Lemma Op_ok : forall ss op z y x v s s', sound z x -> sound y v -> typ z = TInt s -> typ y = TInt s' -> safe op x v -> 
  (op = Mul -> is_const z = true -> is_const y = true -> 0 <= x /\ 0 <= v \/ x <= 0 /\ v <= 0) ->
  let t := TInt (if is_const z && is_const y then smallest (ap op x v) else Z.max s s') in range t (ap op x v) -> (is_const z && is_const y = true -> in_int 64 (ap op x v)) ->
  exists n, Op ss op z y = Ok (Some n) /\ typ n = t /\ sound n (ap op x v) /\
    is_const n = (match op with Mul => (is_const z && is_const y) || (is_const z && (x =? 0)) || (is_const y && (v =? 0)) | _ => is_const z && is_const y end) /\
    (SideEffects n = true -> SideEffects z || SideEffects y = true).
Proof.
  intros ss op z y x v s s' Sz Sy Tz Ty D DM t R R64. unfold Op. rewrite Tz, Ty. destruct (is_const z && is_const y) eqn:K.
  - apply andb_prop in K as [Kz Ky]. unfold is_const in Kz, Ky. destruct (const_of z) as [c|] eqn:Cz; [|discriminate]. destruct (const_of y) as [d|] eqn:Cy; [|discriminate].
    destruct (const_value z x c Sz Cz) as [-> _]. destruct (const_value y v d Sy Cy) as [-> _].
    destruct (sound_base z x Sz) as (Rz & Lz & _). destruct (sound_base y v Sy) as (Ry & Ly & _). pose proof (range_64 _ _ Lz Rz) as X64. pose proof (range_64 _ _ Ly Ry) as V64. specialize (R64 eq_refl).
    assert (E : ConstOp op x v = Ok (Some (KConst (ap op x v) t))).
    { unfold ConstOp. apply good_num. destruct (C39_fold x v X64 V64) as [H1 H2]. destruct (C39_div x v X64 V64) as [_ H3]. destruct op; cbn [ap safe] in *.
      - apply (H1 (fold_plus (chk 64) x v) (x + v)); [cbn [In]; auto|exact R64].
      - apply (H1 (fold_minus (chk 64) x v) (x - v)); [cbn [In]; auto|exact R64].
      - apply (H2 (DM eq_refl ltac:(unfold is_const; rewrite Cz; reflexivity) ltac:(unfold is_const; rewrite Cy; reflexivity))). exact R64.
      - destruct D as (N & A & B & C). destruct (H3 N) as (_ & _ & H4 & _). apply H4; conc; lia.
      - destruct D as (N & A & B). destruct (H3 N) as (_ & _ & _ & H4). apply H4; conc; lia. }
    rewrite E. exists (KConst (ap op x v) t). split; [reflexivity|]. split; [reflexivity|]. split; [apply const_sound; [exact R|apply (smallest_spec _ R64)]|].
    split; [destruct op; reflexivity|discriminate].
  - destruct (unify_ok z y x v s s' Sz Sy Tz Ty) as (z' & y' & E & T1 & T2 & S1 & S2 & K1 & K2 & F1 & F2).
    assert (exists n, on (unify z y) (fun p => let '(z, y) := p in reduce ss op z y (typ z)) = Ok (Some n) /\ typ n = t /\ sound n (ap op x v) /\
       is_const n = (match op with Mul => false || (is_const z && (x =? 0)) || (is_const y && (v =? 0)) | _ => false end) /\ (SideEffects n = true -> SideEffects z || SideEffects y = true)) as G.
    { rewrite E. cbn [on bind]. rewrite T1. destruct (reduce_ok ss op z' y' x v (Z.max s s') S1 S2 T1 T2) as (n & E' & Tn & Sn & Kn & Fn); [rewrite K1, K2; exact K|exact D|exact R|].
      exists n. rewrite E'. split; [reflexivity|]. split; [exact Tn|]. split; [exact Sn|]. rewrite K1, K2 in Kn. rewrite F1, F2 in Fn. split; [rewrite Kn; destruct op; reflexivity|exact Fn]. }
    unfold is_const in K. destruct (const_of z), (const_of y); try discriminate; exact G.
Qed.

Lemma zero_64 : in_int 64 0.
Proof. conc. lia. Qed.
Lemma smallest_64 : forall v, range (TInt (smallest v)) v -> in_int 64 v.
Proof. intros v. unfold smallest. destruct (rangeb 1 v), (rangeb 2 v), (rangeb 4 v); intro; conc; lia. Qed.
Lemma shorter_eq : forall ss si sl s, Shorter ss si sl s = shorter ss si sl s.
Proof. intros. unfold Shorter, shorter. rewrite !Z.gtb_ltb. reflexivity. Qed.
Lemma shorter_legal : forall ss si sl s, NumSpec.model ss si sl -> NumSpec.int_size (shorter ss si sl s) /\ NumSpec.int_size (longer ss si sl s).
Proof. intros ss si sl s [(-> & -> & ->)|[(-> & -> & ->)|(-> & -> & ->)]]; unfold shorter, longer, NumSpec.int_size; split; repeat match goal with |- context [if ?b then _ else _] => destruct b end; auto. Qed.

Variables ss si sl : Z.
Hypothesis M : NumSpec.model ss si sl.
Notation type_of := (type_of ss si sl env).
Notation value := (value env).
Notation known := (known env).
Definition built_as (e : source) (t : ty) : Prop :=
  exists n, build ss si sl e = Ok (Some n) /\ typ n = t /\ sound n (value e) /\ is_const n = known e /\ (SideEffects n = true -> calls e = true).

Lemma Convert_built : forall e a t, (build ss si sl e = on (build ss si sl a) (fun n => Convert n t)) -> value e = value a -> known e = known a -> calls e = calls a -> forall ta, built_as a ta -> legal_type t -> range t (value a) -> (t = TChar -> ta <> TChar) -> built_as e t.
Proof.
  intros e a t EB EV EK EC ta (n & E & T & S & K & F) L R D. destruct (Convert_ok n (value a) t S L R) as (n' & E' & T' & S' & K' & F'); [rewrite T; exact D|].
  exists n'. rewrite EB, E. cbn [on bind]. rewrite EV, EK, EC, <- K, <- K'. split; [exact E'|]. split; [exact T'|]. split; [exact S'|]. split; [reflexivity|]. rewrite F'. exact F.
Qed.
Lemma built : forall e t, type_of e = Some t -> defined ss si sl env e -> clean ss si sl env e -> built_as e t.
Proof.
  assert (Msz : NumSpec.int_size ss /\ NumSpec.int_size si /\ NumSpec.int_size sl) by (pose proof M as M1; unfold NumSpec.model in M1; unfold NumSpec.int_size; lia).
  induction e as [v|c|i ty call|a IH|a IH|a IH|a IH|a IH|a IH|a IH|a IHa n IHn|op a IHa b IHb]; intros t T D C.
  - cbn [NumSpec.type_of] in T. injection T as <-. cbn [defined] in D. destruct D as [D0 D]. assert (H64 : in_int 64 v) by (conc; lia). destruct (smallest_spec v H64) as (A & B & _).
    exists (KConst v (TInt (smallest v))). cbn [build]. rewrite (good_num v (typed v)) by (apply typed_good; exact H64). split; [reflexivity|]. split; [reflexivity|]. split; [apply const_sound; assumption|]. split; [reflexivity|discriminate].
  - injection T as <-. destruct D as [D _]. specialize (D _ eq_refl). exists (KConst c TChar). split; [reflexivity|]. split; [reflexivity|]. split; [apply const_sound; [exact D|exact I]|]. split; [reflexivity|discriminate].
  - injection T as <-. destruct D as [D L]. specialize (D _ eq_refl). exists (KVar i ty call). split; [reflexivity|]. split; [reflexivity|]. split; [|split; [reflexivity|auto]].
    split; [|exact I]. split; [exact D|]. split; [exact L|]. exists (ctype ty). split; [reflexivity|]. split; [|intros _ X; cbn [typ] in X; rewrite X; reflexivity].
    destruct ty as [s|]; cbn [ctype fit]; [|exact D]. split; [destruct L as [->|[->|[->| ->]]]; lia|exact D].
  - (* - *) destruct D as [D0 D]. specialize (D0 _ T). cbn [NumSpec.type_of] in T. destruct (type_of a) as [[s|]|] eqn:Ta; try discriminate. injection T as <-. destruct (IH _ eq_refl D C) as (n & E & Tn & S & K & F).
    cbn [NumSpec.value] in D0. unfold built_as. cbn [build]. rewrite E. cbn [on bind]. unfold Neg. rewrite Tn. destruct (const_of n) as [k|] eqn:Cn.
    + assert (known a = true) as Ka by (rewrite <- K; unfold is_const; rewrite Cn; reflexivity). rewrite Ka in *. destruct (const_value n _ k S Cn) as [-> _].
      destruct (sound_base n _ S) as (Rn & Ln & _). pose proof (range_64 _ _ Ln Rn) as H64. pose proof (smallest_64 _ D0) as H64'. rewrite (good_num (- value a)).
      2:{ destruct (C39_fold (value a) 0 H64 zero_64) as [H1 _]. apply (H1 (fold_neg (chk 64) (value a)) (- value a)); [cbn [In]; auto|exact H64']. }
      exists (KConst (- value a) (TInt (smallest (- value a)))). split; [reflexivity|]. split; [reflexivity|]. split; [apply const_sound; [exact D0|apply (smallest_spec _ H64')]|]. split; [cbn [NumSpec.known]; rewrite Ka; reflexivity|discriminate].
    + assert (known a = false) as Ka by (rewrite <- K; unfold is_const; rewrite Cn; reflexivity). rewrite Ka in *. destruct (sound_base n _ S) as (Rn & Ln & c & Ec & Fc & C8). rewrite Tn in *. destruct (fit_pw c _ Fc) as [P Ip].
      assert (IN : in_int (pw c) (- value a)) by (apply (size_range s); auto; intros ->; rewrite (C8 Cn eq_refl); reflexivity).
      exists (KNeg n (TInt s)). split; [reflexivity|]. split; [reflexivity|]. split; [|split; [cbn [NumSpec.known]; rewrite Ka; reflexivity|exact F]].
      apply (result _ s _ (CS (pw c))); auto; try discriminate.
      * cbn [NumModel.cev]. rewrite Ec. cbn [bind NumSpec.value]. rewrite chk_ok by exact IN. reflexivity.
      * cbn [fit NumSpec.value]. split; [destruct P as [->| ->]; auto|exact IN].
      * intros ->. rewrite (C8 Cn eq_refl). reflexivity.
  - (* ABS *) destruct D as [D0 D]. specialize (D0 _ T). cbn [NumSpec.type_of] in T. destruct (type_of a) as [[s|]|] eqn:Ta; try discriminate. injection T as <-. destruct C as [C CA]. rewrite Ta in CA. destruct (IH _ eq_refl D C) as (n & E & Tn & S & K & F).
    cbn [NumSpec.value] in D0. unfold built_as. cbn [build]. rewrite E. cbn [on bind]. unfold Abs. rewrite Tn. destruct (const_of n) as [k|] eqn:Cn.
    + assert (known a = true) as Ka by (rewrite <- K; unfold is_const; rewrite Cn; reflexivity). rewrite Ka in *. destruct (const_value n _ k S Cn) as [-> _].
      destruct (sound_base n _ S) as (Rn & Ln & _). pose proof (range_64 _ _ Ln Rn) as H64. pose proof (smallest_64 _ D0) as H64'. rewrite (good_num (Z.abs (value a))).
      2:{ destruct (C39_fold (value a) 0 H64 zero_64) as [H1 _]. apply (H1 (fold_abs (chk 64) (value a)) (Z.abs (value a))); [cbn [In]; auto|exact H64']. }
      exists (KConst (Z.abs (value a)) (TInt (smallest (Z.abs (value a))))). split; [reflexivity|]. split; [reflexivity|]. split; [apply const_sound; [exact D0|apply (smallest_spec _ H64')]|]. split; [cbn [NumSpec.known]; rewrite Ka; reflexivity|discriminate].
    + assert (known a = false) as Ka by (rewrite <- K; unfold is_const; rewrite Cn; reflexivity). rewrite Ka in *. destruct (sound_base n _ S) as (Rn & Ln & c & Ec & Fc & C8). rewrite Tn in *. destruct (fit_pw c _ Fc) as [P Ip].
      assert (IN : in_int (pw c) (Z.abs (value a))) by (apply (size_range s); auto; intros ->; rewrite (C8 Cn eq_refl); reflexivity).
      exists (KAbs n (TInt s)). split; [reflexivity|]. split; [reflexivity|]. split; [|split; [cbn [NumSpec.known]; rewrite Ka; reflexivity|exact F]].
      cbn [NumSpec.value]. destruct (SideEffects n) eqn:SE.
      * assert (I32 : in_int 32 (Z.abs (value a))). { destruct (Z.eq_dec s 8) as [->|N8]; [specialize (CA eq_refl (F eq_refl)); conc; lia|]. apply (size_range s); auto. lia. }
        assert (EA : ABSF (bytes c) (value a) = Ok (Z.abs (value a))).
        { unfold ABSF, SYSTEM_ABS32, SYSTEM_ABS64. destruct (bytes c <=? 4), (Z.geb_spec (value a) 0); cbn [bind].
          - f_equal. lia. - rewrite chk_ok; [f_equal; lia|]. replace (- value a) with (Z.abs (value a)) by lia. exact I32.
          - rewrite wrap_s_id; [f_equal; lia|lia|]. replace (value a) with (Z.abs (value a)) by lia. exact I32.
          - rewrite chk_ok by (conc; lia). cbn [bind]. rewrite wrap_s_id; [f_equal; lia|lia|]. replace (- value a) with (Z.abs (value a)) by lia. exact I32. }
        apply (result _ s _ (if s <=? 4 then CS 32 else CS 64)); auto; try discriminate.
        -- cbn [NumModel.cev]. rewrite Ec. cbn [bind]. rewrite SE, EA. cbn [bind]. rewrite Tn. cbn [size]. destruct (s <=? 4); [rewrite wrap_s_id by (auto; lia)|]; reflexivity.
        -- destruct (s <=? 4); cbn [fit]; (split; [auto|]); [exact I32|conc; lia].
        -- intros ->. reflexivity.
      * apply (result _ s _ (CS (pw c))); auto; try discriminate.
        -- cbn [NumModel.cev]. rewrite Ec. cbn [bind]. rewrite SE. unfold ABS_inline. destruct (Z.ltb_spec (value a) 0); [rewrite chk_ok by (replace (- value a) with (Z.abs (value a)) by lia; exact IN)|]; cbn [bind]; do 2 f_equal; lia.
        -- cbn [fit]. split; [destruct P as [->| ->]; auto|exact IN].
        -- intros ->. rewrite (C8 Cn eq_refl). reflexivity.
  - (* ORD *) destruct D as [D0 D]. specialize (D0 _ T). cbn [NumSpec.type_of] in T. destruct (type_of a) as [[s|]|] eqn:Ta; try discriminate. injection T as <-. pose proof (IH _ eq_refl D C) as B.
    apply (Convert_built (SOrd a) a (TInt si)) with (ta := TChar); try reflexivity; auto; try apply Msz; try discriminate.
    cbn [build]. destruct B as (n & E & Tn & _). rewrite E. cbn [on bind]. unfold Ord. rewrite Tn. reflexivity.
  - (* CHR *) destruct D as [D0 D]. specialize (D0 _ T). cbn [NumSpec.type_of] in T. destruct (type_of a) as [[s|]|] eqn:Ta; try discriminate. injection T as <-. pose proof (IH _ eq_refl D C) as B.
    apply (Convert_built (SChr a) a TChar) with (ta := TInt s); try reflexivity; auto; try discriminate; try exact I.
    cbn [build]. destruct B as (n & E & Tn & _). rewrite E. cbn [on bind]. unfold Chr. rewrite Tn. reflexivity.
  - (* CAP *) destruct D as [D0 [D DL]]. specialize (D0 _ T). cbn [NumSpec.type_of] in T. destruct (type_of a) as [[s|]|] eqn:Ta; try discriminate. injection T as <-. destruct (IH _ eq_refl D C) as (n & E & Tn & S & K & F).
    unfold built_as. cbn [build]. rewrite E. cbn [on bind]. unfold Cap. rewrite Tn. destruct (sound_base n _ S) as (Rn & _ & c & Ec & Fc & _). rewrite Tn in Rn. cbn [range] in Rn.
    assert (EC : CAP (value a) = value (SCap a)).
    { cbn [NumSpec.value]. destruct (CAP_letter (value a)) as [L1 L2]; [unfold is_byte; lia|]. destruct (Z.leb_spec 97 (value a)), (Z.leb_spec (value a) 122); cbn [andb]; unfold letter in DL; first [apply L1; lia|apply L2; lia|lia]. }
    destruct (const_of n) as [k|] eqn:Cn.
    + destruct (const_value n _ k S Cn) as [-> _]. exists (KConst (CAP (value a)) TChar). split; [reflexivity|]. split; [reflexivity|]. rewrite EC. split; [apply const_sound; [exact D0|exact I]|]. split; [|discriminate].
      cbn [NumSpec.known]. rewrite <- K. unfold is_const. rewrite Cn. reflexivity.
    + exists (KCap n). split; [reflexivity|]. split; [reflexivity|]. split; [|split; [cbn [NumSpec.known]; rewrite <- K; unfold is_const; rewrite Cn; reflexivity|exact F]].
      split; [|exact I]. split; [exact D0|]. split; [exact I|]. exists CU8. split; [cbn [NumModel.cev]; rewrite Ec; cbn [bind]; rewrite EC; reflexivity|]. split; [exact D0|discriminate].
  - (* SHORT *) destruct D as [D0 D]. specialize (D0 _ T). cbn [NumSpec.type_of] in T. destruct (type_of a) as [[s|]|] eqn:Ta; try discriminate. injection T as <-. pose proof (IH _ eq_refl D C) as B.
    apply (Convert_built (SShort a) a (TInt (shorter ss si sl s))) with (ta := TInt s); try reflexivity; auto; try discriminate; try apply (shorter_legal ss si sl s M).
    cbn [build]. destruct B as (n & E & Tn & _). rewrite E. cbn [on bind]. unfold Short. rewrite Tn, shorter_eq. reflexivity.
  - (* LONG *) destruct D as [D0 D]. specialize (D0 _ T). cbn [NumSpec.type_of] in T. destruct (type_of a) as [[s|]|] eqn:Ta; try discriminate; injection T as <-; pose proof (IH _ eq_refl D C) as B.
    + apply (Convert_built (SLong a) a (TInt (longer ss si sl s))) with (ta := TInt s); try reflexivity; auto; try discriminate; try apply (shorter_legal ss si sl s M).
      cbn [build]. destruct B as (n & E & Tn & _). rewrite E. cbn [on bind]. unfold Long. rewrite Tn. reflexivity.
    + apply (Convert_built (SLong a) a (TInt sl)) with (ta := TChar); try reflexivity; auto; try discriminate; try apply Msz.
      cbn [build]. destruct B as (n & E & Tn & _). rewrite E. cbn [on bind]. unfold Long. rewrite Tn. reflexivity.
  - (* ASH *) destruct D as [D0 (Da & Dn & DK)]. specialize (D0 _ T). cbn [NumSpec.type_of] in T. destruct (type_of a) as [[s|]|] eqn:Ta; try discriminate. destruct (type_of n) as [[sn|]|] eqn:Tn; try discriminate. injection T as <-.
    destruct C as (Ca & Cn & CK). destruct (IHa _ eq_refl Da Ca) as (z & Ez & Tz & Sz & Kz & Fz). destruct (IHn _ eq_refl Dn Cn) as (y & Ey & Ty & Sy & Ky & Fy).
    unfold built_as. cbn [build]. rewrite Ez. cbn [on bind]. rewrite Ey. cbn [on bind]. unfold Ash. rewrite Tz, Ty. destruct (sound_base z _ Sz) as (Rz & Lz & _). rewrite Tz in *.
    assert (exists z', (if s <? sl then Convert z (TInt sl) else Ok (Some z)) = Ok (Some z') /\ typ z' = TInt (Z.max s sl) /\ sound z' (value a) /\ is_const z' = is_const z /\ SideEffects z' = SideEffects z) as (z' & Ez' & Tz' & Sz' & Kz' & Fz').
    { destruct (Z.ltb_spec s sl); [rewrite Z.max_r by lia|rewrite Z.max_l by lia; exists z; auto]. apply Convert_ok; [exact Sz|apply Msz| |discriminate].
      cbn [legal_type] in Lz. destruct Msz as (_ & _ & Lsl). destruct Lz as [->|[->|[->| ->]]], Lsl as [->|[->|[->| ->]]]; conc; lia. }
    rewrite Ez'. cbn [on bind]. cbn [NumSpec.value] in *.
    assert (G : is_const z && is_const y = false -> exists m, Ok (Some (KAsh z' y (typ z'))) = Ok (Some m) /\ typ m = TInt (Z.max s sl) /\ sound m (if 0 <=? value n then value a * 2 ^ value n else value a / 2 ^ (- value n)) /\ is_const m = known a && known n /\ (SideEffects m = true -> calls a || calls n = true)).
    { intros N. exists (KAsh z' y (typ z')). split; [reflexivity|]. split; [exact Tz'|]. split; [rewrite Tz'; apply ash_sound; assumption|]. split; [rewrite <- Kz, <- Ky, N; reflexivity|].
      cbn [SideEffects]. rewrite Fz'. intros X. apply orb_prop in X as [X|X]; [rewrite (Fz X); reflexivity|rewrite (Fy X); apply orb_true_r]. }
    cbn [NumSpec.known calls]. unfold is_const in G, Kz', Kz, Ky. destruct (const_of z') as [k|] eqn:Cz'.
    + destruct (const_of z) eqn:Cz; [|discriminate]. destruct (const_value z' _ k Sz' Cz') as [-> _]. destruct (const_of y) as [q|] eqn:Cy; [|apply G; reflexivity].
      destruct (const_value y _ q Sy Cy) as [-> _]. rewrite <- Kz, <- Ky in *. destruct (CK eq_refl eq_refl) as (B1 & B2 & B3).
      assert (H64 : in_int 64 (value a)) by (cbn [legal_type] in Lz; exact (range_64 (TInt s) _ Lz Rz)).
      destruct (C39_ash sl (value a) (size (typ z')) (value n) H64) as [HA _]; [unfold limit in B2; unfold MINI; change (2 ^ 63) with 9223372036854775808 in B2; lia|].
      rewrite Z.geb_leb in HA. destruct HA as [HA _]; [unfold limit in B3; unfold MAXI; change (2 ^ 63) with 9223372036854775808 in B3; lia|].
      rewrite HA. unfold num. cbn [bind]. rewrite Tz'. cbn [size]. replace (Z.max sl (Z.max s sl)) with (Z.max s sl) by lia.
      exists (KConst (if 0 <=? value n then value a * 2 ^ value n else value a / 2 ^ (- value n)) (TInt (Z.max s sl))). split; [reflexivity|]. split; [reflexivity|]. split; [|split; [reflexivity|discriminate]].
      apply const_sound; [exact D0|]. cbn [legal_type]. destruct (Z.max_spec s sl) as [[_ ->]|[_ ->]]; [apply Msz|exact Lz].
    + destruct (const_of z) eqn:Cz; [discriminate|]. apply G. reflexivity.
  - (* operators *) assert (T' := T). assert (DD : defined ss si sl env a /\ defined ss si sl env b /\ (op = Div \/ op = Mod -> value b <> 0)) by (destruct D as [_ D]; destruct op; destruct D as [D1 D2]; try destruct D2 as [D2 D3]; (split; [assumption|]; split; [assumption|]); intros [|]; try discriminate; assumption).
    destruct D as [D0 _]. specialize (D0 _ T). destruct DD as (Da & Db & Dz). cbn [NumSpec.type_of] in T. destruct (type_of a) as [[s|]|] eqn:Ta; try discriminate. destruct (type_of b) as [[s'|]|] eqn:Tb; try discriminate. injection T as <-.
    destruct C as (Ca & Cb & CO). destruct (IHa _ eq_refl Da Ca) as (z & Ez & Tz & Sz & Kz & Fz). destruct (IHb _ eq_refl Db Cb) as (y & Ey & Ty & Sy & Ky & Fy).
    assert (EV : value (SBin op a b) = ap op (value a) (value b)) by (destruct op; reflexivity). rewrite EV in *.
    assert (ET : (if known a && known b then smallest (ap op (value a) (value b)) else Z.max s s') = (if is_const z && is_const y then smallest (ap op (value a) (value b)) else Z.max s s')) by (rewrite Kz, Ky; reflexivity).
    fold (ap op (value a) (value b)) in D0 |- *. rewrite ET. rewrite ET in D0. destruct (Op_ok ss op z y (value a) (value b) s s' Sz Sy Tz Ty) as (m & E & Tm & Sm & Km & Fm).
    + destruct op; cbn [safe]; auto.
    + intros -> X Y. apply CO; congruence.
    + exact D0.
    + intros X. rewrite X in D0. apply smallest_64, D0.
    + exists m. cbn [build]. rewrite Ez. cbn [on bind]. rewrite Ey. cbn [on bind]. rewrite EV. split; [exact E|]. split; [exact Tm|]. split; [exact Sm|]. split; [rewrite Km, Kz, Ky; destruct op; reflexivity|].
      intros X. specialize (Fm X). cbn [calls]. apply orb_prop in Fm as [Y|Y]; [rewrite (Fz Y); reflexivity|rewrite (Fy Y); apply orb_true_r].
Qed.

End Nodes.

(** * C72 *)
Section Theorems.
Variables ss si sl : Z.
Hypothesis M : NumSpec.model ss si sl.
Variable env : nat -> Z.
Notation type_of := (type_of ss si sl env).
Notation value := (value env).
Notation defined := (defined ss si sl env).
Notation clean := (clean ss si sl env).
Notation known := (known env).
Notation build := (build ss si sl).

(** The node built has the type of the expression, and the C written for it computes the value, with and without range checks. *)
Theorem C72_value : forall ranchk e t, type_of e = Some t -> defined e -> clean e ->
  exists n c, build e = Ok (Some n) /\ typ n = t /\ cev ranchk env n = Ok (c, value e).
Proof.
  intros ranchk e t T D C. destruct (built ranchk env ss si sl M e t T D C) as (n & E & Tn & S & _). destruct (sound_base _ _ n _ S) as (_ & _ & c & Ec & _). exists n, c. auto.
Qed.

Lemma form_same : forall a b, form a = form b <-> (a = TChar <-> b = TChar).
Proof. intros [s|] [s'|]; cbn; split; try lia; try (split; intros; congruence); intros [A B]; try (specialize (A eq_refl)); try (specialize (B eq_refl)); congruence. Qed.

(** Assignment stores the value if the type of the expression is not larger than that of the variable (and both are integers or both characters), and is rejected otherwise. *)
Theorem C72_assign : forall ranchk e t tv, type_of e = Some t -> defined e -> clean e -> legal_type tv ->
  exists n, build e = Ok (Some n) /\
    ((t = TChar <-> tv = TChar) -> size t <= size tv -> Assign ranchk env tv n = Ok (Some (value e))) /\
    (~ (t = TChar <-> tv = TChar) \/ size tv < size t -> Assign ranchk env tv n = Ok None).
Proof.
  intros ranchk e t tv T D C L. destruct (built ranchk env ss si sl M e t T D C) as (n & E & Tn & S & _). destruct (sound_base _ _ n _ S) as (R & Ln & c & Ec & _). rewrite Tn in *.
  exists n. split; [exact E|]. unfold Assign. rewrite Tn, Ec. cbn [bind]. destruct t as [s|], tv as [d|]; cbn [size convert_c].
  - split; [intros _ Q; destruct (Z.ltb_spec d s); [lia|]; cbn [negb]; rewrite wrap_s_id; [reflexivity|destruct L as [->|[->|[->| ->]]]; lia|]|].
    + cbn [legal_type] in *. destruct L as [->|[->|[->| ->]]], Ln as [->|[->|[->| ->]]]; conc; lia.
    + intros [Q|Q]; [exfalso; apply Q; split; discriminate|]. destruct (Z.ltb_spec d s); [reflexivity|lia].
  - split; [intros [_ Q]; discriminate (Q eq_refl)|reflexivity].
  - split; [intros [Q _]; discriminate (Q eq_refl)|reflexivity].
  - split; [intros _ _; rewrite wrap_u_id; [reflexivity|exact R]|]. intros [Q|Q]; [exfalso; apply Q; split; reflexivity|lia].
Qed.

(** The relations compare the values; a number is not compared with a character. *)
Theorem C72_relation : forall ranchk r e1 e2 t1 t2, type_of e1 = Some t1 -> type_of e2 = Some t2 -> defined e1 -> defined e2 -> clean e1 -> clean e2 ->
  exists z y, build e1 = Ok (Some z) /\ build e2 = Ok (Some y) /\
    ((t1 = TChar <-> t2 = TChar) -> exists b, Compare ranchk env r z y = Ok (Some b) /\ (b = true <-> related r (value e1) (value e2))) /\
    (~ (t1 = TChar <-> t2 = TChar) -> Compare ranchk env r z y = Ok None).
Proof.
  intros ranchk r e1 e2 t1 t2 T1 T2 D1 D2 C1 C2. destruct (built ranchk env ss si sl M e1 t1 T1 D1 C1) as (z & Ez & Tz & Sz & _). destruct (built ranchk env ss si sl M e2 t2 T2 D2 C2) as (y & Ey & Ty & Sy & _).
  exists z, y. split; [exact Ez|]. split; [exact Ey|]. unfold Compare. rewrite Tz, Ty. rewrite <- form_same. split; [intros FF; rewrite FF, Z.eqb_refl|intros N; apply Z.eqb_neq in N; rewrite N; reflexivity].
  assert (G : exists b, on (unify z y) (fun p => let '(z, y) := p in let* (_, x) := cev ranchk env z in let* (_, v) := cev ranchk env y in Ok (Some (c_rel r x v))) = Ok (Some b) /\ (b = true <-> related r (value e1) (value e2))).
  { assert (exists z' y', unify z y = Ok (Some (z', y')) /\ sound ranchk env z' (value e1) /\ sound ranchk env y' (value e2)) as (z' & y' & E & S1 & S2).
    { destruct t1 as [s|], t2 as [s'|]; cbn in FF; try lia.
      - destruct (unify_ok ranchk env z y _ _ s s' Sz Sy Tz Ty) as (z' & y' & E & _ & _ & S1 & S2 & _). exists z', y'. auto.
      - exists z, y. unfold unify. rewrite Tz, Ty. cbn [same]. auto. }
    rewrite E. cbn [on bind]. destruct (sound_base _ _ z' _ S1) as (_ & _ & c1 & E1 & _). destruct (sound_base _ _ y' _ S2) as (_ & _ & c2 & E2 & _). rewrite E1. cbn [bind]. rewrite E2. cbn [bind].
    exists (c_rel r (value e1) (value e2)). split; [reflexivity|]. destruct r; cbn [c_rel related]; lia. }
  destruct (const_of z) as [c|] eqn:Cz; [|exact G]. destruct (const_of y) as [d|] eqn:Cy; [|exact G].
  destruct (const_value _ _ z _ c Sz Cz) as [-> _]. destruct (const_value _ _ y _ d Sy Cy) as [-> _]. eexists. split; [reflexivity|].
  destruct (C39_compare (value e1) (value e2)) as (H1 & H2 & H3 & H4 & H5 & H6). destruct r; cbn [relation_of related]; assumption.
Qed.

(** ODD. *)
Theorem C72_odd : forall ranchk e s, type_of e = Some (TInt s) -> defined e -> clean e ->
  exists n, build e = Ok (Some n) /\ Odd ranchk env n = Ok (Some (Z.odd (value e))).
Proof.
  intros ranchk e s T D C. destruct (built ranchk env ss si sl M e _ T D C) as (n & E & Tn & S & _). destruct (sound_base _ _ n _ S) as (_ & _ & c & Ec & _).
  exists n. split; [exact E|]. unfold Odd. rewrite Tn. destruct (const_of n) as [k|] eqn:Cn.
  - destruct (const_value _ _ n _ k S Cn) as [-> _]. rewrite ODD_spec. reflexivity.
  - rewrite Ec. cbn [bind]. rewrite ODD_spec. reflexivity.
Qed.

(** INC and DEC of a variable of d bytes add and subtract the value; the second operand has a type not larger than that of the variable, or is a constant that fits it. *)
Theorem C72_inc : forall ranchk (decrement : bool) e s d old, type_of e = Some (TInt s) -> defined e -> clean e -> NumSpec.int_size d -> range (TInt d) old ->
  let new := if decrement then old - value e else old + value e in
  exists n, build e = Ok (Some n) /\
    (s <= d \/ known e = true /\ range (TInt d) (value e) -> range (TInt d) new -> Inc ranchk env decrement d old n = Ok (Some new)) /\
    (d < s -> known e = false \/ ~ range (TInt d) (value e) -> Inc ranchk env decrement d old n = Ok None).
Proof.
  intros ranchk decrement e s d old T D C Id Ro new. destruct (built ranchk env ss si sl M e _ T D C) as (n & E & Tn & S & K & _). destruct (sound_base _ _ n _ S) as (R & Ln & c & Ec & Fc & C8). rewrite Tn in *. cbn [legal_type] in Ln.
  exists n. split; [exact E|]. unfold Inc. rewrite Tn. split.
  - intros Q Rn. assert (exists n', (if s =? d then Ok (Some n) else match const_of n with Some _ => Convert n (TInt d) | None => if s <=? d then Convert n (TInt d) else Ok None end) = Ok (Some n') /\ sound ranchk env n' (value e)) as (n' & En & Sn).
    { destruct (Z.eqb_spec s d) as [->|N]; [exists n; auto|].
      assert (RV : range (TInt d) (value e)). { destruct Q as [Q|[_ Q]]; [|exact Q]. destruct Id as [->|[->|[->| ->]]], Ln as [->|[->|[->| ->]]]; conc; lia. }
      destruct (Convert_ok ranchk env n (value e) (TInt d) S Id RV) as (n' & En & _ & Sn & _); [discriminate|].
      exists n'. split; [|exact Sn]. unfold is_const in K. destruct (const_of n); [exact En|]. destruct Q as [Q|[Q _]]; [rewrite (proj2 (Z.leb_le s d)) by lia; exact En|congruence]. }
    rewrite En. cbn [on bind]. destruct (sound_base _ _ n' _ Sn) as (_ & _ & c' & Ec' & Fc' & _). rewrite Ec'. cbn [bind]. fold new. destruct (fit_pw c' _ Fc') as [P _].
    rewrite chk_ok.
    + cbn [bind]. rewrite wrap_s_id; [reflexivity|destruct Id as [->|[->|[->| ->]]]; lia|exact Rn].
    + apply (size_range d); auto; destruct Id as [->|[->|[->| ->]]]; cbn [pw]; destruct P as [->| ->]; cbn; lia.
  - intros L Q. destruct (Z.eqb_spec s d); [lia|]. unfold is_const in K. destruct (const_of n) as [k|] eqn:Cn.
    + destruct Q as [Q|Q]; [congruence|]. destruct (const_value _ _ n _ k S Cn) as [-> Nn]. rewrite Nn, Tn. cbn [Convert]. destruct (Z.gtb_spec s d); [|lia].
      pose proof (range_64 (TInt s) _ Ln R) as H64. rewrite SetIntType_smallest by exact H64. cbn [bind]. destruct (smallest_spec _ H64) as (A & B & _).
      destruct (Z.gtb_spec (smallest (value e)) d); [reflexivity|]. exfalso. apply Q. destruct Id as [->|[->|[->| ->]]], A as [A|[A|[A|A]]]; rewrite A in *; conc; lia.
    + destruct (Z.leb_spec s d); [lia|]. reflexivity.
Qed.

(** Expressions without a type are not accepted. *)
Lemma Convert_form : forall n t n', Convert n t = Ok (Some n') -> typ n' = t.
Proof.
  intros n t n' H. destruct n as [v tn| |a tn| | | | | |]; cbn [Convert] in H; try (injection H as <-; reflexivity).
  - destruct tn as [s|]; [|injection H as <-; reflexivity]. destruct t as [d|].
    + destruct (s >? d); [|injection H as <-; reflexivity]. destruct (bind_inv _ _ _ _ _ H) as (q & _ & H1). destruct (q >? d); [discriminate|]. injection H1 as <-. reflexivity.
    + destruct ((0 >? v) || (v >? 255)); [discriminate|]. injection H as <-. reflexivity.
  - destruct ((form (typ a) <? form tn) || (form tn >? form t)); [|injection H as <-; reflexivity]. destruct (same (typ a) t) eqn:Q; injection H as <-; [apply same_eq, Q|reflexivity].
Qed.
Lemma on_inv : forall A B (r : res (option A)) (k : A -> res (option B)) b, on r k = Ok (Some b) -> exists a, r = Ok (Some a) /\ k a = Ok (Some b).
Proof. intros A B r k b H. destruct r as [[a|]| | |]; cbn in H; try discriminate. eauto. Qed.
Lemma num_form : forall r n, num r = Ok (Some n) -> exists s, typ n = TInt s.
Proof. intros r n H. unfold num in H. destruct (bind_inv _ _ _ _ _ H) as ([v s|k] & _ & H1); [|discriminate]. injection H1 as <-. exists s. reflexivity. Qed.
Lemma reduce_form : forall op z y s n, typ z = TInt s -> typ y = TInt s -> reduce ss op z y (TInt s) = Ok (Some n) -> typ n = TInt s.
Proof.
  intros op z y s n Tz Ty H. assert (PW : forall v k o, power v k o = Ok (Some n) -> (forall e, typ (k e) = TInt s) -> typ o = TInt s -> typ n = TInt s).
  { intros v k o P K O. unfold power in P. destruct (bind_inv _ _ _ _ _ P) as ([l e] & _ & P1). injection P1 as <-. destruct (l =? 1); auto. }
  unfold reduce in H. destruct op.
  - injection H as <-. destruct (is 0 z), (is 0 y); auto.
  - injection H as <-. destruct (is 0 y); auto.
  - destruct (const_of z) as [v|]; [|destruct (const_of y) as [v|]; [|injection H as <-; reflexivity]];
      (destruct (v =? 1); [injection H as <-; assumption|]; destruct (v =? 0); [injection H as <-; assumption|]; apply (PW _ _ _ H); [intro e|]; reflexivity).
  - destruct (const_of y) as [v|]; [|injection H as <-; reflexivity]. destruct (v =? 0); [discriminate|]. destruct (v =? 1); [injection H as <-; assumption|]. apply (PW _ _ _ H); [intro e|]; reflexivity.
  - destruct (const_of y) as [v|]; [|injection H as <-; reflexivity]. destruct (v =? 0); [discriminate|]. destruct (bind_inv _ _ _ _ _ H) as ([l e] & _ & H1). destruct (l =? 1); [|injection H1 as <-; reflexivity].
    destruct (bind_inv _ _ _ _ _ H1) as (m & _ & H2). injection H2 as <-. reflexivity.
Qed.
Lemma forms : forall e n, build e = Ok (Some n) -> exists t, type_of e = Some t /\ form t = form (typ n).
Proof.
  induction e as [v|c|i ty call|a IH|a IH|a IH|a IH|a IH|a IH|a IH|a IHa k IHk|op a IHa b IHb]; intros n H; cbn [NumModel.build] in H; cbn [NumSpec.type_of].
  - eexists. split; [reflexivity|]. destruct (num_form _ _ H) as (s & ->). reflexivity.
  - injection H as <-. eexists. split; reflexivity.
  - injection H as <-. eexists. split; reflexivity.
  - destruct (on_inv _ _ _ _ _ H) as (m & E & H1). destruct (IH m E) as (t & -> & F). unfold Neg in H1. destruct (typ m) as [s|]; [|discriminate]. destruct t; [|discriminate]. eexists. split; [reflexivity|].
    destruct (const_of m); [destruct (num_form _ _ H1) as (s' & ->)|injection H1 as <-]; reflexivity.
  - destruct (on_inv _ _ _ _ _ H) as (m & E & H1). destruct (IH m E) as (t & -> & F). unfold Abs in H1. destruct (typ m) as [s|]; [|discriminate]. destruct t; [|discriminate]. eexists. split; [reflexivity|].
    destruct (const_of m); [destruct (num_form _ _ H1) as (s' & ->)|injection H1 as <-]; reflexivity.
  - destruct (on_inv _ _ _ _ _ H) as (m & E & H1). destruct (IH m E) as (t & -> & F). unfold Ord in H1. destruct (typ m) as [s|]; [discriminate|]. destruct t; [discriminate|]. eexists. split; [reflexivity|]. rewrite (Convert_form _ _ _ H1). reflexivity.
  - destruct (on_inv _ _ _ _ _ H) as (m & E & H1). destruct (IH m E) as (t & -> & F). unfold Chr in H1. destruct (typ m) as [s|]; [|discriminate]. destruct t; [|discriminate]. eexists. split; [reflexivity|]. rewrite (Convert_form _ _ _ H1). reflexivity.
  - destruct (on_inv _ _ _ _ _ H) as (m & E & H1). destruct (IH m E) as (t & -> & F). unfold Cap in H1. destruct (typ m) as [s|]; [discriminate|]. destruct t; [discriminate|]. eexists. split; [reflexivity|].
    destruct (const_of m); injection H1 as <-; reflexivity.
  - destruct (on_inv _ _ _ _ _ H) as (m & E & H1). destruct (IH m E) as (t & -> & F). unfold Short in H1. destruct (typ m) as [s|]; [|discriminate]. destruct t; [|discriminate]. eexists. split; [reflexivity|]. rewrite (Convert_form _ _ _ H1). reflexivity.
  - destruct (on_inv _ _ _ _ _ H) as (m & E & H1). destruct (IH m E) as (t & -> & F). unfold Long in H1. destruct (typ m) as [s|], t; try discriminate; (eexists; split; [reflexivity|]; rewrite (Convert_form _ _ _ H1); reflexivity).
  - destruct (on_inv _ _ _ _ _ H) as (m & E & H1). destruct (IHa m E) as (t & -> & F). destruct (on_inv _ _ _ _ _ H1) as (m' & E' & H2). destruct (IHk m' E') as (t' & -> & F').
    unfold Ash in H2. destruct (typ m) as [s|] eqn:Tm; [|discriminate]. destruct (typ m') as [s'|]; [|discriminate]. destruct t; [|discriminate]. destruct t'; [|discriminate]. eexists. split; [reflexivity|].
    destruct (on_inv _ _ _ _ _ H2) as (a' & Ea & H3). assert (exists q, typ a' = TInt q) as (q & Tq) by (destruct (s <? sl); [rewrite (Convert_form _ _ _ Ea)|injection Ea as <-; rewrite Tm]; eauto).
    destruct (const_of a'), (const_of m'); try (injection H3 as <-; cbn [typ]; rewrite Tq; reflexivity). destruct (num_form _ _ H3) as (u & ->). reflexivity.
  - destruct (on_inv _ _ _ _ _ H) as (m & E & H1). destruct (IHa m E) as (t & -> & F). destruct (on_inv _ _ _ _ _ H1) as (m' & E' & H2). destruct (IHb m' E') as (t' & -> & F').
    unfold Op in H2. destruct (typ m) as [s|] eqn:Tm; [|discriminate]. destruct (typ m') as [s'|] eqn:Tm'; [|discriminate]. destruct t; [|discriminate]. destruct t'; [|discriminate]. eexists. split; [reflexivity|].
    assert (G : on (unify m m') (fun p => let '(z, y) := p in reduce ss op z y (typ z)) = Ok (Some n) -> form (TInt 0) = form (typ n)).
    { intros G. destruct (on_inv _ _ _ _ _ G) as ([z y] & Eu & G1). assert (exists q, typ z = TInt q /\ typ y = TInt q) as (q & Tz & Ty).
      { unfold unify in Eu. rewrite Tm, Tm' in Eu. destruct (same (TInt s) (TInt s')) eqn:Q; [injection Eu as <- <-; apply same_eq in Q; exists s; split; congruence|].
        destruct (s' <? s); destruct (on_inv _ _ _ _ _ Eu) as (w & Ew & Eu1); injection Eu1 as <- <-; apply Convert_form in Ew; eauto. }
      rewrite Tz in G1. rewrite (reduce_form _ _ _ _ _ Tz Ty G1). reflexivity. }
    destruct (const_of m), (const_of m'); try exact (G H2). destruct (num_form _ _ H2) as (u & ->). reflexivity.
Qed.
Theorem C72_types : forall e n, type_of e = None -> build e <> Ok (Some n).
Proof. intros e n T H. destruct (forms e n H) as (t & E & _). congruence. Qed.

(** With range checks, SHORT and CHR of a value outside the shorter type halt the program; constants are rejected.  The operand must not contain a call (C05), and CHR is checked only above. *)
Theorem C72_range_check : forall e s, type_of e = Some (TInt s) -> defined e -> clean e -> calls e = false ->
  (~ range (TInt (shorter ss si sl s)) (value e) -> known e = true -> build (SShort e) = Ok None) /\
  (~ range (TInt (shorter ss si sl s)) (value e) -> known e = false -> ~ 0 <= value e < 256 -> exists n, build (SShort e) = Ok (Some n) /\ cev true env n = Trap (-8)) /\
  (~ 0 <= value e < 256 -> known e = true -> build (SChr e) = Ok None) /\
  (256 <= value e -> known e = false -> exists n, build (SChr e) = Ok (Some n) /\ cev true env n = Trap (-8)).
Proof.
  intros e s T D C NC. destruct (built true env ss si sl M e _ T D C) as (n & E & Tn & S & K & F). assert (SE : SideEffects n = false) by (destruct (SideEffects n); [rewrite (F eq_refl) in NC; discriminate|reflexivity]).
  destruct (sound_base _ _ n _ S) as (R & Ln & c & Ec & Fc & C8). rewrite Tn in *. cbn [legal_type] in Ln. pose proof (range_64 (TInt s) _ Ln R) as H64.
  assert (LT : ~ range (TInt (shorter ss si sl s)) (value e) -> NumSpec.int_size (shorter ss si sl s) /\ shorter ss si sl s < s).
  { intros NR. split; [apply shorter_legal, M|]. assert (s = 1 \/ shorter ss si sl s < s) as [->|]; [|exfalso; apply NR; replace (shorter ss si sl 1) with 1; [exact R|]|assumption].
    - unfold shorter. destruct Ln as [->|[->|[->| ->]]], M as [(-> & -> & ->)|[(-> & -> & ->)|(-> & -> & ->)]]; cbn; lia.
    - destruct M as [(-> & -> & ->)|[(-> & -> & ->)|(-> & -> & ->)]]; reflexivity. }
  cbn [NumModel.build]. rewrite E. cbn [on bind]. unfold Short, Chr. rewrite Tn, shorter_eq. unfold is_const in K. conjs.
  - intros NR Ke. destruct (LT NR) as [I L]. destruct (const_of n) as [k|] eqn:Cn; [|congruence]. destruct (const_value _ _ n _ k S Cn) as [-> Nn]. rewrite Nn, Tn. cbn [Convert]. destruct (Z.gtb_spec s (shorter ss si sl s)); [|lia].
    rewrite SetIntType_smallest by exact H64. cbn [bind]. destruct (smallest_spec _ H64) as (A & B & _). destruct (Z.gtb_spec (smallest (value e)) (shorter ss si sl s)); [reflexivity|].
    exfalso. apply NR. destruct A as [A|[A|[A|A]]], I as [I|[I|[I|I]]]; rewrite A, I in *; conc; lia.
  - intros NR Ke NB. destruct (LT NR) as [I L]. destruct (const_of n) as [k|] eqn:Cn; [congruence|].
    assert (exists a, Convert n (TInt (shorter ss si sl s)) = Ok (Some (KConv n (TInt (shorter ss si sl s)))) /\ a = n) as (_ & EC & _).
    { exists n. split; [|reflexivity]. destruct n as [| |b tn| | | | | |]; try reflexivity; try discriminate. cbn [typ] in Tn. subst tn. cbn [Convert form]. destruct S as (_ & _ & Sb). destruct (typ b) as [q|] eqn:Tb; [reflexivity|].
      exfalso. destruct (sound_base _ _ b _ Sb) as (Rb & _). rewrite Tb in Rb. exact (NB Rb). }
    exists (KConv n (TInt (shorter ss si sl s))). split; [exact EC|]. cbn [cev]. rewrite Ec. cbn [bind]. unfold SizeCast. rewrite Tn, SE. cbn [size]. rewrite (proj2 (Z.ltb_lt _ _)) by lia. cbn [andb].
    replace (2 ^ (8 * shorter ss si sl s - 1)) with (max_int (8 * shorter ss si sl s) + 1) by (unfold max_int; lia).
    rewrite SHORT_inline_exact; [|exact H64|destruct Ln as [->|[->|[->| ->]]], I as [I|[I|[I|I]]]; rewrite I in *; lia].
    destruct (in_intb (8 * shorter ss si sl s) (value e)) eqn:IB; [|reflexivity]. exfalso. apply NR. apply in_intb_iff in IB. exact IB.
  - intros NB Ke. destruct (const_of n) as [k|] eqn:Cn; [|congruence]. destruct (const_value _ _ n _ k S Cn) as [-> Nn]. rewrite Nn, Tn. cbn [Convert]. replace ((0 >? value e) || (value e >? 255)) with true by lia. reflexivity.
  - intros NB Ke. destruct (const_of n) as [k|] eqn:Cn; [congruence|].
    assert (exists a ca, Convert n TChar = Ok (Some (KConv a TChar)) /\ cev true env a = Ok (ca, value e) /\ SideEffects a = false) as (a & ca & EC & EA & SA).
    { assert (PL : Convert n TChar = Ok (Some (KConv n TChar)) -> exists a ca, Convert n TChar = Ok (Some (KConv a TChar)) /\ cev true env a = Ok (ca, value e) /\ SideEffects a = false) by (intros P; exists n, c; auto).
      destruct n as [| |b tn| | | | | |]; try (apply PL; reflexivity); try discriminate. cbn [typ] in Tn. subst tn. destruct S as (_ & Nb & Sb). destruct (sound_base _ _ b _ Sb) as (Rb & _ & cb & Eb & _).
      destruct (typ b) as [q|] eqn:Tb; [|cbn [range] in Rb; lia]. exists b, cb. cbn [Convert form]. rewrite Tb. cbn. auto. }
    exists (KConv a TChar). split; [exact EC|]. cbn [cev]. rewrite EA. cbn [bind]. rewrite SA. rewrite CHR_inline_nonneg by lia. destruct (Z.ltb_spec (value e) 256); [lia|]. reflexivity.
Qed.
End Theorems.
Print Assumptions C72_value.
Print Assumptions C72_assign.
Print Assumptions C72_relation.
Print Assumptions C72_odd.
Print Assumptions C72_inc.
Print Assumptions C72_types.
Print Assumptions C72_range_check.

(** ** What the conditions are for *)

(** A constant shift beyond LONGINT keeps the type LONGINT, is not reported, and the assignment of ASH(1, 40) to a LONGINT variable of 4 bytes stores 0. *)
Theorem C72_constant_ash_refuted : let e := SAsh (SInt 1) (SInt 40) in
  type_of 1 2 4 (fun _ => 0) e = Some (TInt 4) /\ known (fun _ => 0) e = true /\ ~ range (TInt 4) (value (fun _ => 0) e) /\
  exists n, build 1 2 4 e = Ok (Some n) /\ Assign false (fun _ => 0) (TInt 4) n = Ok (Some 0) /\ Assign true (fun _ => 0) (TInt 4) n = Ok (Some 0).
Proof. cbv zeta. split; [reflexivity|]. split; [reflexivity|]. split; [vm_compute; intros [_ H]; discriminate|]. exists (KConst 1099511627776 (TInt 4)). repeat split; vm_compute; reflexivity. Qed.
Print Assumptions C72_constant_ash_refuted.

(** With range checks: SHORT(ORD(ch)) of a character above 127 is not checked, where SHORTINT has one byte and INTEGER two. *)
Theorem C72_short_ord_refuted : let env := fun _ : nat => 200 in let e := SOrd (SVar 0 TChar false) in
  type_of 1 2 4 env e = Some (TInt 2) /\ defined 1 2 4 env e /\ clean 1 2 4 env e /\ calls e = false /\ ~ range (TInt (shorter 1 2 4 2)) (value env e) /\
  exists n, build 1 2 4 (SShort e) = Ok (Some n) /\ typ n = TInt 1 /\ cev true env n = Ok (CU8, 200) /\ Assign true env (TInt 1) n = Ok (Some (-56)).
Proof.
  cbv zeta. split; [reflexivity|]. split; [cbn; repeat split; try (intros t E; injection E as <-; cbn; lia)|]. split; [cbn; auto|]. split; [reflexivity|].
  split; [cbn; lia|]. exists (KConv (KVar 0 TChar false) (TInt 1)). repeat split; vm_compute; reflexivity.
Qed.
Print Assumptions C72_short_ord_refuted.

(** With range checks: CHR of a negative number is not checked if there is no call in it. *)
Theorem C72_chr_negative_refuted : let env := fun _ : nat => -1 in let e := SVar 0 (TInt 2) false in
  type_of 1 2 4 env e = Some (TInt 2) /\ defined 1 2 4 env e /\ clean 1 2 4 env e /\ ~ range TChar (value env e) /\
  exists n, build 1 2 4 (SChr e) = Ok (Some n) /\ cev true env n = Ok (CU8, 255).
Proof.
  cbv zeta. split; [reflexivity|]. split; [cbn; split; [intros t E; injection E as <-; cbn; lia|unfold NumSpec.int_size; lia]|]. split; [exact I|]. split; [cbn; lia|].
  exists (KConv (KVar 0 (TInt 2) false) TChar). split; vm_compute; reflexivity.
Qed.
Print Assumptions C72_chr_negative_refuted.

(** ABS of a call with a result of 8 bytes loses the upper half. *)
Theorem C72_abs_call_refuted : let env := fun _ : nat => -5000000000 in let e := SAbs (SVar 0 (TInt 8) true) in
  type_of 1 2 4 env e = Some (TInt 8) /\ defined 1 2 4 env e /\ value env e = 5000000000 /\
  exists n, build 1 2 4 e = Ok (Some n) /\ cev false env n = Ok (CS 64, 705032704).
Proof.
  cbv zeta. split; [reflexivity|]. split; [cbn; repeat split; try (intros t E; injection E as <-; cbn; lia); unfold NumSpec.int_size; lia|]. split; [reflexivity|].
  exists (KAbs (KVar 0 (TInt 8) true) (TInt 8)). split; vm_compute; reflexivity.
Qed.
Print Assumptions C72_abs_call_refuted.

(** The division of the largest 8-byte number by -3 overflows on the way. *)
Theorem C72_div_refuted : let env := fun i : nat => match i with O => 2 ^ 63 - 1 | _ => -3 end in let e := SBin Div (SVar 0 (TInt 8) false) (SVar 1 (TInt 8) false) in
  type_of 1 2 4 env e = Some (TInt 8) /\ defined 1 2 4 env e /\ exists n, build 1 2 4 e = Ok (Some n) /\ cev false env n = UB.
Proof.
  cbv zeta. split; [reflexivity|]. split; [cbn; repeat split; try (intros t E; injection E as <-; cbn; lia); unfold NumSpec.int_size; lia|].
  exists (KBin Div (KVar 0 (TInt 8) false) (KVar 1 (TInt 8) false) (TInt 8)). split; vm_compute; reflexivity.
Qed.
Print Assumptions C72_div_refuted.

(** The product of two constants of opposite sign: the compiler's own test for overflow divides by zero (C39). *)
Theorem C72_product_refuted : let env := fun _ : nat => 0 in let e := SBin Mul (SInt 2) (SNeg (SInt 3)) in
  type_of 1 2 4 env e = Some (TInt 1) /\ defined 1 2 4 env e /\ value env e = -6 /\ build 1 2 4 e = UB.
Proof.
  cbv zeta. split; [reflexivity|]. split; [cbn; repeat split; try (intros t E; injection E as <-; cbn; lia); lia|]. split; vm_compute; reflexivity.
Qed.
Print Assumptions C72_product_refuted.

(** Non-vacuity: (i DIV 4 + SHORT(l)) * ORD(CAP(ch)) - ABS(f() MOD 7 + ASH(b, 3)) with an INTEGER i, LONGINT l, SHORTINT b in the 2/4/8 model. *)
Module Case.
Definition env : nat -> Z := fun i => match i with 0%nat => -1234567 | 1%nat => 98765 | 2%nat => 113 | 3%nat => -100000000000 | _ => -77 end.
Definition e : source :=
  SBin Sub (SBin Mul (SBin Add (SBin Div (SVar 0 (TInt 4) false) (SInt 4)) (SShort (SVar 1 (TInt 8) false))) (SOrd (SCap (SVar 2 TChar false))))
           (SAbs (SBin Add (SBin Mod (SVar 3 (TInt 8) true) (SInt 7)) (SAsh (SVar 4 (TInt 2) false) (SInt 3)))).
Example typed : type_of 2 4 8 env e = Some (TInt 8). Proof. reflexivity. Qed.
Lemma fits_ok : forall ss si sl env e t, type_of ss si sl env e = Some t -> range t (value env e) -> fits ss si sl env e.
Proof. intros ss si sl v x t E R t' E'. rewrite E in E'. injection E' as <-. exact R. Qed.
Example ok : defined 2 4 8 env e.
Proof. cbn -[Z.pow range Z.div Z.modulo]. repeat split; try (eapply fits_ok; [reflexivity|vm_compute; intuition discriminate]); try (vm_compute; intuition discriminate); unfold NumSpec.int_size; vm_compute; intuition. Qed.
Example tidy : clean 2 4 8 env e.
Proof. cbn -[Z.pow Z.div Z.modulo]. repeat split; try discriminate; try (vm_compute; intuition discriminate). Qed.
Example computed : value env e = -17000651 /\ (let* o := build 2 4 8 e in match o with Some n => cev true env n | None => Trap 0 end) = Ok (CS 64, value env e).
Proof. split; vm_compute; reflexivity. Qed.
Example reduced : build 2 4 8 (SBin Div (SVar 0 (TInt 4) false) (SInt 4)) = Ok (Some (KAsh (KVar 0 (TInt 4) false) (KConst (-2) (TInt 2)) (TInt 4))). Proof. vm_compute. reflexivity. Qed.
Example rejected : type_of 1 2 4 env (SBin Add (SVar 2 TChar false) (SInt 1)) = None /\ build 1 2 4 (SBin Add (SVar 2 TChar false) (SInt 1)) = Ok None. Proof. split; vm_compute; reflexivity. Qed.
Example checked : (let* o := build 1 2 4 (SShort (SVar 0 (TInt 4) false)) in match o with Some n => cev true env n | None => Ok (CU8, 0) end) = Trap (-8). Proof. vm_compute. reflexivity. Qed.
End Case.
