(** C93: a text survives being stored and loaded. *)
From Verif Require Import Base TfileModel TfileSpec.

Lemma NoDup_app_intro_one : forall A (l : list A) x, NoDup l -> ~ In x l -> NoDup (l ++ [x]).
Proof.
  induction l as [|y l IH]; intros x N I; cbn; [constructor; [intros []|constructor]|]. inversion N; subst. constructor.
  - intros J. apply in_app_or in J as [J|[J|[]]]; [auto|]. apply I. left. auto.
  - apply IH; [assumption|]. intros J. apply I. right. exact J.
Qed.
Lemma skipn_skipn_add : forall A (l : list A) x y, skipn x (skipn y l) = skipn (x + y) l.
Proof. intros A l x y. revert l. induction y as [|y IH]; intros l; [rewrite Nat.add_0_r; reflexivity|]. rewrite Nat.add_succ_r. destruct l; [destruct x; reflexivity|]. cbn. apply IH. Qed.
Lemma over_slot : forall f a r b, length a = length b -> over (f ++ a ++ r) (length f) b = f ++ b ++ r.
Proof.
  intros f a r b H. unfold over. rewrite firstn_app, firstn_all, Nat.sub_diag, firstn_O, app_nil_r. f_equal. f_equal.
  rewrite <- H, app_assoc, <- app_length, skipn_app, skipn_all, Nat.sub_diag. reflexivity.
Qed.
Lemma LInt_read : forall x r, in_int 32 x -> ReadLInt (LInt x ++ r) = (x, r).
Proof.
  intros x r H. unfold ReadLInt, LInt. cbn [app rd].
  replace (wrap_s 32 _) with x; [reflexivity|].
  unfold wrap_s, in_int in *. change (2 ^ (32 - 1)) with 2147483648 in *. change (2 ^ 32) with 4294967296.
  assert (E : x mod 256 + x / 256 mod 256 * 256 + x / 65536 mod 256 * 65536 + x / 16777216 mod 256 * 16777216 = x mod 4294967296).
  { change 65536 with (256 * 256). change 16777216 with (256 * 256 * 256). change 4294967296 with (256 * (256 * (256 * 256))).
    rewrite <- !Z.div_div by lia. rewrite !Z.rem_mul_r by lia. ring. }
  rewrite E. pose proof (Z.div_mod x 4294967296 ltac:(lia)) as D. pose proof (Z.mod_pos_bound x 4294967296 ltac:(lia)) as B.
  set (q := x / 4294967296) in *. set (m := x mod 4294967296) in *.
  assert (Q : q = 0 \/ q = -1) by lia.
  destruct Q as [Q|Q].
  - rewrite Z.mod_small by lia. lia.
  - replace (m + 2147483648) with (m - 2147483648 + 1 * 4294967296) by lia. rewrite Z.mod_add, Z.mod_small by lia. lia.
Qed.
Lemma Int8_read : forall x r, -128 <= x < 128 -> ReadInt8 (x mod 256 :: r) = (x, r).
Proof.
  intros x r H. unfold ReadInt8. cbn [rd]. f_equal. unfold wrap_s. change (2 ^ (8 - 1)) with 128. change (2 ^ 8) with 256.
  destruct (Z_lt_dec x 0).
  - replace (x mod 256) with (x + 256) by (rewrite <- (Z.mod_add x 1) by lia; rewrite Z.mod_small; lia).
    replace (x + 256 + 128) with (x + 128 + 1 * 256) by lia. rewrite Z.mod_add, Z.mod_small by lia. lia.
  - rewrite (Z.mod_small x), Z.mod_small by lia. lia.
Qed.
Lemma Int8_read0 : forall x r, 0 <= x < 128 -> ReadInt8 (x :: r) = (x, r).
Proof. intros x r H. rewrite <- (Int8_read x r) by lia. rewrite Z.mod_small by lia. reflexivity. Qed.
Lemma Str_read : forall x n r, (length x < n)%nat -> Forall (fun c => 0 < c < 256) x -> ReadString n (Str x ++ r) = Ok (x, r).
Proof.
  induction x as [|c x IH]; intros n r H F; (destruct n as [|n]; [cbn in H; lia|]); cbn.
  - reflexivity.
  - inversion F; subst. replace (c =? 0) with false by lia. unfold Str in IH. rewrite IH; [reflexivity| cbn in H; lia|assumption].
Qed.
Lemma index_range : forall A eq (l : list A) x, 1 <= index eq l x <= Z.of_nat (length l) + 1.
Proof. induction l as [|y l IH]; intros x; cbn [index length]; [lia|]. specialize (IH x). destruct (eq y x); lia. Qed.
Lemma index_new : forall A (eq : A -> A -> bool) (l : list A) x, (forall a b, eq a b = true <-> a = b) -> (index eq l x = Z.of_nat (length l) + 1 <-> ~ In x l).
Proof.
  intros A eq l x D. induction l as [|y l IH]; cbn [index length In]; [tauto|].
  pose proof (index_range A eq l x). destruct (eq y x) eqn:E.
  - apply D in E. split; intros G; [lia|tauto].
  - assert (y <> x) by (intros G; apply D in G; congruence). split; intros G.
    + intros [?|?]; [tauto|]. apply IH; [lia|assumption].
    + assert (~ In x l) by tauto. apply IH in H1. lia.
Qed.
Lemma index_nth : forall A (eq : A -> A -> bool) (l : list A) x d, (forall a b, eq a b = true <-> a = b) -> In x l -> nth (Z.to_nat (index eq l x - 1)) l d = x.
Proof.
  intros A eq l x d D. induction l as [|y l IH]; cbn [index In]; [tauto|]. intros I. pose proof (index_range A eq l x). destruct (eq y x) eqn:E.
  - apply D in E. exact E.
  - destruct I as [I|I]; [apply D in I; congruence|]. replace (Z.to_nat (1 + index eq l x - 1)) with (S (Z.to_nat (index eq l x - 1))) by lia. cbn. auto.
Qed.
Lemma name_eqb_ok : forall a b, name_eqb a b = true <-> a = b.
Proof. intros a b. unfold name_eqb. destruct (list_eq_dec Z.eq_dec a b); split; congruence. Qed.
Lemma pair_eqb_ok : forall a b, pair_eqb a b = true <-> a = b.
Proof. intros [a1 a2] [b1 b2]. unfold pair_eqb. cbn. rewrite andb_true_iff, !name_eqb_ok. split; [intros [-> ->]; reflexivity|intros H; injection H; auto]. Qed.

Lemma pair_dec : forall a b : list Z * list Z, {a = b} + {a <> b}.
Proof. decide equality; apply (list_eq_dec Z.eq_dec). Qed.

Lemma lines_ok : forall b, (forall x y, b <> x ++ 13 :: 10 :: y) -> lines b = map (fun ch => if ch =? 10 then 13 else ch) b.
Proof.
  assert (N : forall n b, (length b <= n)%nat -> (forall x y, b <> x ++ 13 :: 10 :: y) -> lines b = map (fun ch => if ch =? 10 then 13 else ch) b).
  { induction n as [|n IH]; intros b L H; (destruct b as [|c b]; [reflexivity|cbn in L]); [lia|].
    assert (T : lines b = map (fun ch => if ch =? 10 then 13 else ch) b).
    { apply IH; [lia|]. intros x y ->. exact (H (c :: x) y eq_refl). }
    assert (G : lines (c :: b) = (if c =? 10 then 13 else c) :: lines b).
    { destruct (Z.eq_dec c 13) as [->|NE].
      - destruct b as [|d b]; [reflexivity|]. destruct (Z.eq_dec d 10) as [->|ND]; [destruct (H [] b eq_refl)|].
        destruct d as [|d|d]; try reflexivity. do 4 (destruct d as [d|d|]; try reflexivity); congruence.
      - destruct c as [|c|c]; try reflexivity. do 4 (destruct c as [c|c|]; try reflexivity); congruence. }
    rewrite G, T. reflexivity. }
  intros b. apply (N (length b)). lia.
Qed.
(** What the characters of a piece show. *)
Lemma shown_piece : forall u b a, body u = Piece b a -> no_crlf u -> shown1 u = map (fun ch => (Chr ch, col u, voff u)) (chars u) /\ length (chars u) = length b.
Proof.
  intros u b a E N. unfold shown1, chars, no_crlf in *. rewrite E in *. destruct a.
  - rewrite lines_ok by assumption. split; [reflexivity|apply map_length].
  - split; reflexivity.
Qed.
Lemma gather_ok : forall u l n n' l', gather u n l = (n', l') -> Forall no_crlf l ->
  exists g, l = g ++ l' /\ n' = n + Z.of_nat (length (flat_map chars g)) /\ shown g = map (fun ch => (Chr ch, col u, voff u)) (flat_map chars g) /\ length_of l = Z.of_nat (length (flat_map chars g)) + length_of l'.
Proof.
  intros u. induction l as [|v l IH]; intros n n' l' G N; cbn [gather] in G.
  - injection G as <- <-. exists []. cbn. repeat split; lia.
  - assert (STOP : (n, v :: l) = (n', l') -> exists g, v :: l = g ++ l' /\ n' = n + Z.of_nat (length (flat_map chars g)) /\ shown g = map (fun ch => (Chr ch, col u, voff u)) (flat_map chars g) /\ length_of (v :: l) = Z.of_nat (length (flat_map chars g)) + length_of l').
    { intros E. injection E as <- <-. exists []. cbn [app flat_map length shown map]. repeat split; lia. }
    destruct (body v) as [b a|] eqn:B; [|auto].
    destruct (font_eqb _ _ && (col v =? col u) && (voff v =? voff u)) eqn:C; [|auto].
    apply andb_prop in C as [C V]. apply andb_prop in C as [_ C]. apply Z.eqb_eq in C, V.
    inversion N as [|? ? N1 N2]; subst. destruct (IH _ _ _ G N2) as (g & -> & -> & S & L).
    destruct (shown_piece v b a B N1) as [S1 L1]. exists (v :: g).
    cbn [app flat_map shown]. rewrite app_length, L1, map_app, S1, C, V. unfold shown in S. rewrite S.
    repeat split; [lia|]. unfold length_of in *. cbn [app map fold_right]. rewrite B. lia.
Qed.

Definition unnamed (l : list run) : Z := fold_right Z.add 0 (map (fun u => match body u with Elem None _ _ _ => 1 | _ => 0 end) l).
Lemma unnamed_app : forall a b, unnamed (a ++ b) = unnamed a + unnamed b.
Proof. induction a; intros b; unfold unnamed in *; cbn; [reflexivity|]. rewrite IHa. lia. Qed.
Lemma unnamed_piece : forall u l n n' l', gather u n l = (n', l') -> unnamed l = unnamed l'.
Proof.
  intros u. induction l as [|v l IH]; intros n n' l' G; cbn [gather] in G; [injection G as <- <-; reflexivity|].
  destruct (body v) as [b a|] eqn:B; [|injection G as <- <-; reflexivity].
  destruct (_ && _ && _); [|injection G as <- <-; reflexivity]. rewrite <- (IH _ _ _ G). unfold unnamed. cbn [map fold_right]. rewrite B. lia.
Qed.
Lemma length_shown : forall l, Forall no_crlf l -> Z.of_nat (length (shown l)) = length_of l - unnamed l /\ length (shown l) = length (flat_map chars l).
Proof.
  induction l as [|u l IH]; intros N; [split; reflexivity|]. inversion N; subst. destruct (IH H2) as [I J].
  unfold shown, length_of, unnamed in *. cbn [flat_map map fold_right]. rewrite !app_length.
  destruct (body u) as [b a|[id|] w h data] eqn:B.
  - destruct (shown_piece u b a B H1) as [-> L]. rewrite map_length. lia.
  - assert (S1 : length (shown1 u) = 1%nat /\ length (chars u) = 1%nat) by (unfold shown1, chars; rewrite B; split; reflexivity). lia.
  - assert (S1 : length (shown1 u) = 0%nat /\ length (chars u) = 0%nat) by (unfold shown1, chars; rewrite B; split; reflexivity). lia.
Qed.

Section Trip.
Variable F : list (list Z).
Variable E : list (list Z * list Z).
Hypothesis F30 : (length F <= 30)%nat.
Hypothesis E62 : (length E <= 62)%nat.
Lemma looks_ok : forall u fnts i n, fnt u = Some (i, n) -> In n F -> is_name n -> NoDup fnts -> incl fnts F -> -128 <= col u < 128 -> -128 <= voff u < 128 ->
  exists e fnts', (forall f, looks f fnts u = Ok (f ++ e, fnts')) /\ NoDup fnts' /\ incl fnts' F /\ (0 < length e)%nat /\
  forall fl Ff pos ecnt mf r,
    load (S fl) Ff (e ++ r) pos (Z.of_nat (length fnts)) ecnt mf =
    (let '(plen, s) := ReadLInt r in
     if plen >? 0 then
       let* q := load fl Ff s (pos + plen) (Z.of_nat (length fnts')) ecnt mf in Ok ({| fnt := None; col := col u; voff := voff u; body := Piece (firstn (Z.to_nat plen) (skipn (Z.to_nat pos) Ff)) false |} :: fst q, snd q)
     else
       let* e := LoadElem s (- plen) ecnt mf in
       let '(b, s, ecnt, mf) := e in
       let* q := load fl Ff s (pos + 1) (Z.of_nat (length fnts')) ecnt mf in Ok ({| fnt := None; col := col u; voff := voff u; body := b |} :: fst q, snd q)).
Proof.
  intros u fnts i n EF I NM ND IN HC HV.
  assert (L : (length fnts <= 30)%nat) by (eapply Nat.le_trans; [apply (NoDup_incl_length ND IN)|exact F30]).
  pose proof (index_range _ name_eqb fnts n) as IR. pose proof (index_new _ name_eqb fnts n name_eqb_ok) as NW.
  set (fno := index name_eqb fnts n) in *. destruct NM as [NL NB].
  destruct (Z.eq_dec fno (Z.of_nat (length fnts) + 1)) as [D|D].
  - exists (fno :: Str n ++ [col u mod 256; voff u mod 256]), (fnts ++ [n]). split; [|split; [|split; [|split]]].
    + intros f. unfold looks. replace (Z.of_nat (length fnts) + 1 >? 31) with false by lia. rewrite EF. fold fno. rewrite D, Z.eqb_refl.
      rewrite <- !app_assoc. reflexivity.
    + apply NW in D. apply NoDup_app_intro_one; assumption.
    + intros x X. apply in_app_or in X as [X|[<-|[]]]; auto.
    + cbn; lia.
    + intros fl Ff pos ecnt mf r. cbn [load app]. rewrite Int8_read0 by lia. replace (fno =? 0) with false by lia.
      replace (fno >? Z.of_nat (length fnts)) with true by lia. rewrite <- app_assoc, Str_read by (assumption || lia). cbn [bind fst snd].
      replace (fno >? 31) with false by lia. cbn [bind fst snd app]. rewrite !Int8_read by assumption. rewrite app_length. cbn [length].
      replace (Z.of_nat (length fnts + 1)) with fno by lia. reflexivity.
  - exists [fno; col u mod 256; voff u mod 256], fnts. split; [|split; [|split; [|split]]]; auto.
    + intros f. unfold looks. replace (Z.of_nat (length fnts) + 1 >? 31) with false by lia. rewrite EF. fold fno.
      replace (fno =? _) with false by lia. rewrite <- app_assoc. reflexivity.
    + cbn; lia.
    + intros fl Ff pos ecnt mf r. cbn [load app]. rewrite Int8_read0 by lia. replace (fno =? 0) with false by lia.
      replace (fno >? Z.of_nat (length fnts)) with false by lia. cbn [bind]. rewrite !Int8_read by assumption. reflexivity.
Qed.
Definition agrees (mods : list (list Z * list Z)) (mf : Z -> list Z * list Z) : Prop := forall k, (k < length mods)%nat -> mf (Z.of_nat k + 1) = nth k mods ([], []).
Lemma elem_ok : forall mods m p w h data, In (m, p) E -> is_name m -> is_name p -> in_int 32 w -> in_int 32 h -> Z.of_nat (length data) < 2 ^ 31 -> NoDup mods -> incl mods E ->
  exists e mods', (forall f, StoreElem f mods (m, p) w h data = Ok (f ++ LInt (- Z.of_nat (length data)) ++ e, mods')) /\ NoDup mods' /\ incl mods' E /\
  forall r mf, agrees mods mf -> exists mf', agrees mods' mf' /\ LoadElem (e ++ r) (Z.of_nat (length data)) (Z.of_nat (length mods)) mf = Ok (Elem (Some (m, p)) w h data, r, Z.of_nat (length mods'), mf').
Proof.
  intros mods m p w h data I [ML MB] [PL PB] HW HH HD ND IN.
  assert (L : (length mods <= 62)%nat) by (eapply Nat.le_trans; [apply (NoDup_incl_length ND IN)|exact E62]).
  pose proof (index_range _ pair_eqb mods (m, p)) as IR. pose proof (index_new _ pair_eqb mods (m, p) pair_eqb_ok) as NW.
  pose proof (index_nth _ pair_eqb mods (m, p) ([], []) pair_eqb_ok) as NT.
  set (eno := index pair_eqb mods (m, p)) in *.
  destruct (Z.eq_dec eno (Z.of_nat (length mods) + 1)) as [D|D].
  - exists (LInt w ++ LInt h ++ [eno] ++ Str m ++ Str p ++ data), (mods ++ [(m, p)]). split; [|split; [|split]].
    + intros f. unfold StoreElem. replace (Z.of_nat (length mods) + 1 >? 63) with false by lia. fold eno. rewrite D, Z.eqb_refl. cbn [fst snd].
      match goal with |- context [over ?x _ _] => replace x with (f ++ (LInt 0 ++ LInt 0 ++ LInt 0) ++ ([eno] ++ Str m ++ Str p ++ data)) by (rewrite D; rewrite <- !app_assoc; reflexivity) end.
      rewrite over_slot by reflexivity. f_equal. f_equal. f_equal. rewrite <- !app_assoc. f_equal; [|rewrite D; reflexivity]. f_equal. rewrite !app_length. cbn [length]. lia.
    + apply NW in D. apply NoDup_app_intro_one; assumption.
    + intros x X. apply in_app_or in X as [X|[<-|[]]]; auto.
    + intros r mf AG. exists (fun i => if i =? eno then (m, p) else mf i). split.
      * intros k K. rewrite app_length in K. cbn [length] in K. destruct (Z.of_nat k + 1 =? eno) eqn:KE.
        -- rewrite app_nth2 by lia. replace (k - length mods)%nat with O by lia. reflexivity.
        -- rewrite app_nth1 by lia. apply AG. lia.
      * unfold LoadElem. rewrite <- !app_assoc, !LInt_read by assumption. cbn [app]. rewrite Int8_read0 by lia.
        replace (eno >? Z.of_nat (length mods)) with true by lia. replace (eno >? 63) with false by lia. rewrite Str_read by (assumption || lia). cbn [bind fst snd].
        rewrite Str_read by (assumption || lia). cbn [bind fst snd]. replace (eno <? 0) with false by lia. rewrite Z.eqb_refl, Nat2Z.id, firstn_app, skipn_app, firstn_all, skipn_all, Nat.sub_diag.
        cbn [firstn skipn]. rewrite app_nil_r, app_length. cbn [app length]. do 4 f_equal. lia.
  - exists (LInt w ++ LInt h ++ [eno] ++ data), mods. split; [|split; [|split]]; auto.
    + intros f. unfold StoreElem. replace (Z.of_nat (length mods) + 1 >? 63) with false by lia. fold eno. replace (eno =? _) with false by lia.
      match goal with |- context [over ?x _ _] => replace x with (f ++ (LInt 0 ++ LInt 0 ++ LInt 0) ++ ([eno] ++ data)) by (rewrite <- !app_assoc; reflexivity) end.
      rewrite over_slot by reflexivity. f_equal. f_equal. f_equal. rewrite <- !app_assoc. f_equal. f_equal. rewrite !app_length. cbn [length]. lia.
    + assert (M : In (m, p) mods).
      { destruct (in_dec pair_dec (m, p) mods) as [X|X]; [exact X|apply NW in X; lia]. }
      specialize (NT M). intros r mf AG. exists mf. split; [exact AG|]. unfold LoadElem. rewrite <- !app_assoc, !LInt_read by assumption. cbn [app]. rewrite Int8_read0 by lia.
      replace (eno >? Z.of_nat (length mods)) with false by lia. cbn [bind]. replace (eno <? 0) with false by lia.
      specialize (AG (Z.to_nat (eno - 1)) ltac:(lia)). replace (Z.of_nat (Z.to_nat (eno - 1)) + 1) with eno in AG by lia. rewrite AG, NT.
      rewrite Nat2Z.id, firstn_app, skipn_app, firstn_all, skipn_all, Nat.sub_diag. cbn [firstn skipn]. rewrite app_nil_r. reflexivity.
Qed.
Lemma length_of_nonneg : forall l, 0 <= length_of l.
Proof. induction l as [|u l IH]; unfold length_of in *; cbn; [lia|]. destruct (body u); lia. Qed.
Lemma header_ok : forall n l fnts mods delta, (length l <= n)%nat -> Forall good l -> Forall (few F E) l -> Forall no_crlf l -> length_of l < 2 ^ 31 ->
  NoDup fnts -> incl fnts F -> NoDup mods -> incl mods E ->
  exists enc, (forall f, header n f fnts mods delta l = Ok (f ++ enc, delta + unnamed l)) /\
  forall Ff tail pos fl rest mf, (length enc <= fl)%nat -> agrees mods mf -> 0 <= pos -> skipn (Z.to_nat pos) Ff = flat_map chars l ++ tail ->
  exists l', load fl Ff (enc ++ 0 :: rest) pos (Z.of_nat (length fnts)) (Z.of_nat (length mods)) mf = Ok (l', rest) /\ shown l' = shown l.
Proof.
  induction n as [|n IH]; intros l fnts mods delta HL HG HF HN LT NDF INF NDM INM.
  { destruct l; [|cbn in HL; lia]. exists []. split.
    - intros f. cbn. rewrite app_nil_r. unfold unnamed. cbn. do 2 f_equal. lia.
    - intros. exists []. destruct fl; cbn [load app]; rewrite Int8_read0 by lia; split; reflexivity. }
  destruct l as [|u l].
  { exists []. split.
    - intros f. cbn. rewrite app_nil_r. unfold unnamed. cbn. do 2 f_equal. lia.
    - intros. exists []. destruct fl; cbn [load app]; rewrite Int8_read0 by lia; split; reflexivity. }
  cbn in HL. inversion HG as [|? ? G1 G2]; subst. inversion HF as [|? ? F1 F2]; subst. inversion HN as [|? ? N1 N2]; subst.
  destruct G1 as (GC & GV & GB). unfold few in F1.
  pose proof (length_of_nonneg l) as LN.
  destruct (body u) as [b a|[[m p]|] w h data] eqn:B.
  - destruct F1 as [(i & nm & FN & FI & FM) _].
    destruct (looks_ok u fnts i nm FN FI FM NDF INF GC GV) as (e & fnts' & LK & ND' & IN' & LE & LD).
    destruct (gather u (Z.of_nat (length b)) l) as [rlen l'] eqn:G.
    destruct (gather_ok _ _ _ _ _ G N2) as (g & -> & -> & SG & LG).
    pose proof (unnamed_piece _ _ _ _ _ G) as UP. destruct (shown_piece u b a B N1) as [S1 L1].
    apply Forall_app in G2 as [_ G2]. apply Forall_app in F2 as [_ F2]. apply Forall_app in N2 as [_ N2].
    assert (LT' : Z.of_nat (length b) + length_of (g ++ l') < 2 ^ 31) by (unfold length_of in *; cbn [map fold_right] in LT; rewrite B in LT; exact LT).
    pose proof (length_of_nonneg l'). destruct GB as [GB _].
    assert (0 < Z.of_nat (length b)) by (destruct b; [congruence|cbn [length]; lia]).
    rewrite app_length in HL.
    destruct (IH l' fnts' mods delta ltac:(lia) G2 F2 N2 ltac:(lia) ND' IN' NDM INM) as (enc & HE & HD).
    set (rlen := Z.of_nat (length b) + Z.of_nat (length (flat_map chars g))) in *.
    exists (e ++ LInt rlen ++ enc). split.
    + intros f. cbn [header]. rewrite B, LK. cbn [bind fst snd]. rewrite G. rewrite HE. rewrite <- !app_assoc. do 2 f_equal. rewrite <- UP. unfold unnamed. cbn [map fold_right]. rewrite B. lia.
    + intros Ff tail pos fl rest mf FL AG P SK. rewrite !app_length in FL. change (length (LInt rlen)) with 4%nat in FL. destruct fl as [|fl]; [lia|].
      cbn [flat_map] in SK. rewrite flat_map_app, <- !app_assoc in SK.
      rewrite <- !app_assoc, LD, LInt_read by (unfold in_int; change (2 ^ (32 - 1)) with (2 ^ 31); lia).
      replace (rlen >? 0) with true by lia.
      destruct (HD Ff tail (pos + rlen) fl rest mf ltac:(lia) AG ltac:(lia)) as (l2 & E2 & S2).
      { rewrite Z2Nat.inj_add by lia. rewrite Nat.add_comm, <- skipn_skipn_add, SK. rewrite app_assoc, skipn_app.
        replace (Z.to_nat rlen) with (length (chars u ++ flat_map chars g)) by (rewrite app_length; lia).
        rewrite skipn_all, Nat.sub_diag. reflexivity. }
      rewrite E2. cbn [bind fst snd]. eexists. split; [reflexivity|]. cbn [shown flat_map]. unfold shown in S2. rewrite S2, flat_map_app. unfold shown in SG. rewrite SG, S1.
      cbn [shown1 body col voff]. rewrite SK, app_assoc. unfold shown1 at 1. cbn [body col voff].
      replace (Z.to_nat rlen) with (length (chars u ++ flat_map chars g)) by (rewrite app_length; lia).
      rewrite firstn_app, firstn_all, Nat.sub_diag, firstn_O, app_nil_r, map_app, <- app_assoc. reflexivity.
  - destruct F1 as [(i & nm & FN & FI & FM) EI].
    destruct GB as (Bm & Bp & Bn & Bw & Bh & Bd & Bl).
    destruct (looks_ok u fnts i nm FN FI FM NDF INF GC GV) as (e & fnts' & LK & ND' & IN' & LE & LD).
    destruct (elem_ok mods m p w h data EI Bm Bp Bw Bh Bl NDM INM) as (e2 & mods' & SE & NDM' & INM' & LDE).
    assert (LT' : length_of l < 2 ^ 31) by (unfold length_of in LT |- *; cbn [map fold_right] in LT; rewrite B in LT; lia).
    destruct (IH l fnts' mods' delta ltac:(lia) G2 F2 N2 LT' ND' IN' NDM' INM') as (enc & HE & HD).
    exists (e ++ (LInt (- Z.of_nat (length data)) ++ e2) ++ enc). split.
    + intros f. cbn [header]. rewrite B, LK. cbn [bind fst snd]. rewrite SE. cbn [bind fst snd]. rewrite HE. rewrite <- !app_assoc. do 2 f_equal. unfold unnamed. cbn [map fold_right]. rewrite B. lia.
    + intros Ff tail pos fl rest mf FL AG P SK. rewrite !app_length in FL. destruct fl as [|fl]; [lia|].
      cbn [flat_map] in SK. replace (chars u) with [28] in SK by (unfold chars; rewrite B; reflexivity). cbn [app] in SK.
      rewrite <- !app_assoc, LD, LInt_read by (unfold in_int; change (2 ^ (32 - 1)) with (2 ^ 31); lia).
      replace (- Z.of_nat (length data) >? 0) with false by lia. rewrite Z.opp_involutive.
      destruct (LDE (enc ++ 0 :: rest) mf AG) as (mf' & AG' & ->). cbn [bind].
      destruct (HD Ff tail (pos + 1) fl rest mf' ltac:(lia) AG' ltac:(lia)) as (l2 & E2 & S2).
      { rewrite Z2Nat.inj_add by lia. rewrite Nat.add_comm, <- skipn_skipn_add, SK. reflexivity. }
      rewrite E2. cbn [bind fst snd]. eexists. split; [reflexivity|]. cbn [shown flat_map]. unfold shown in S2. rewrite S2. f_equal. unfold shown1. rewrite B. reflexivity.
  - assert (LT' : length_of l < 2 ^ 31) by (unfold length_of in LT |- *; cbn [map fold_right] in LT; rewrite B in LT; lia).
    destruct (IH l fnts mods (delta + 1) ltac:(lia) G2 F2 N2 LT' NDF INF NDM INM) as (enc & HE & HD).
    exists enc. split.
    + intros f. cbn [header]. rewrite B, HE. do 2 f_equal. unfold unnamed. cbn [map fold_right]. rewrite B. lia.
    + intros Ff tail pos fl rest mf FL AG P SK. cbn [flat_map] in SK. replace (chars u) with (@nil Z) in SK by (unfold chars; rewrite B; reflexivity).
      destruct (HD Ff tail pos fl rest mf FL AG P SK) as (l2 & E2 & S2). exists l2. split; [exact E2|]. rewrite S2. cbn [shown flat_map]. unfold shown1. rewrite B. reflexivity.
Qed.
End Trip.

Lemma trip : forall F E pre l, (length F <= 30)%nat -> (length E <= 62)%nat -> Forall good l -> Forall (few F E) l -> Forall no_crlf l -> length_of l < 2 ^ 31 ->
  exists f, Store pre (length_of l) l = Ok (pre ++ f) /\ (exists h f', f = LInt h ++ f') /\
  (Z.of_nat (length f) + 2 < 2 ^ 31 -> forall tail, exists l', Load0 (pre ++ f ++ tail) (length pre) = Ok (l', Z.of_nat (length (shown l)), Z.of_nat (length (pre ++ f))) /\ shown l' = shown l).
Proof.
  intros F E pre l F30 E62 HG HF HN LT.
  destruct (header_ok F E F30 E62 (S (length l)) l [] [] 0 ltac:(lia) HG HF HN LT ltac:(constructor) ltac:(intros ? []) ltac:(constructor) ltac:(intros ? [])) as (enc & HE & HD).
  destruct (length_shown l HN) as [LS LC].
  set (hlen := Z.of_nat (length enc) + 11).
  exists (LInt hlen ++ enc ++ [0] ++ LInt (Z.of_nat (length (shown l))) ++ flat_map chars l). split; [|split; [eauto|]].
  - unfold Store. rewrite HE. cbn [bind]. rewrite Z.add_0_l, <- LS.
    match goal with |- context [over ?x _ _] => replace x with (pre ++ LInt 0 ++ (enc ++ [0] ++ LInt (Z.of_nat (length (shown l))))) by (rewrite <- !app_assoc; reflexivity) end.
    rewrite over_slot by reflexivity. f_equal. rewrite <- !app_assoc. do 2 f_equal.
    f_equal. unfold hlen. rewrite !app_length. cbn [length LInt]. lia.
  - intros SZ tail. rewrite !app_length in SZ. cbn [length LInt] in SZ.
    assert (SK : skipn (length pre + (4 + (length enc + (1 + 4)))) (pre ++ (LInt hlen ++ enc ++ [0] ++ LInt (Z.of_nat (length (shown l))) ++ flat_map chars l) ++ tail) = flat_map chars l ++ tail).
    { replace (pre ++ _) with ((pre ++ LInt hlen ++ enc ++ [0] ++ LInt (Z.of_nat (length (shown l)))) ++ flat_map chars l ++ tail) by (rewrite <- !app_assoc; reflexivity).
      rewrite skipn_app, skipn_all2 by (rewrite !app_length; cbn [length LInt]; lia).
      match goal with |- [] ++ skipn ?k _ = _ => replace k with O by (rewrite !app_length; cbn [length LInt]; lia) end. reflexivity. }
    unfold Load0. rewrite skipn_app, skipn_all, Nat.sub_diag. cbn [skipn app]. rewrite <- !app_assoc.
    rewrite LInt_read by (unfold in_int, hlen; change (2 ^ (32 - 1)) with (2 ^ 31); lia). cbn [app].
    destruct (HD (pre ++ (LInt hlen ++ enc ++ [0] ++ LInt (Z.of_nat (length (shown l))) ++ flat_map chars l) ++ tail) tail (Z.of_nat (length pre) - 2 + hlen)
      (length (pre ++ (LInt hlen ++ enc ++ [0] ++ LInt (Z.of_nat (length (shown l))) ++ flat_map chars l) ++ tail)) (LInt (Z.of_nat (length (shown l))) ++ flat_map chars l ++ tail) (fun _ => ([], []))) as (l' & EL & SL).
    + rewrite !app_length. lia.
    + intros k K. cbn in K. lia.
    + unfold hlen. lia.
    + rewrite <- SK. f_equal. unfold hlen. lia.
    + rewrite <- !app_assoc in EL. cbn [app] in EL. cbn [length Z.of_nat] in EL. rewrite <- ?app_assoc. rewrite EL. cbn [bind].
      rewrite LInt_read by (unfold in_int; change (2 ^ (32 - 1)) with (2 ^ 31); lia).
      exists l'. split; [|exact SL]. do 2 f_equal. repeat (rewrite ?app_length; cbn [length LInt app]). rewrite <- LC. lia.
Qed.

(** Storing succeeds, and loading from where the text was stored, with anything behind it, gives a text of the same length that shows the same characters and
    elements with the same colours and offsets; the rider then is behind the text.  Missing: fonts (they are lost), CR LF, more than 30 fonts or 62 kinds of elements. *)
Theorem C93_roundtrip_partial : forall F E pre l, (length F <= 30)%nat -> (length E <= 62)%nat -> Forall good l -> Forall (few F E) l -> Forall no_crlf l -> length_of l < 2 ^ 31 ->
  exists f, Store pre (length_of l) l = Ok (pre ++ f) /\
  (Z.of_nat (length f) + 2 < 2 ^ 31 -> forall tail, exists l', Load0 (pre ++ f ++ tail) (length pre) = Ok (l', Z.of_nat (length (shown l)), Z.of_nat (length (pre ++ f))) /\ shown l' = shown l).
Proof.
  intros F E pre l F30 E62 HG HF HN LT. destruct (trip F E pre l F30 E62 HG HF HN LT) as (f & S & _ & L). eauto.
Qed.

(** The same for whole files. *)
Corollary C93_close_open_partial : forall F E l, (length F <= 30)%nat -> (length E <= 62)%nat -> Forall good l -> Forall (few F E) l -> Forall no_crlf l -> length_of l < 2 ^ 31 ->
  exists f, Close (length_of l) l = Ok f /\ (Z.of_nat (length f) < 2 ^ 31 -> exists l', Open f = Ok (l', Z.of_nat (length (shown l))) /\ shown l' = shown l).
Proof.
  intros F E l F30 E62 HG HF HN LT. destruct (C93_roundtrip_partial F E [240; 1] l F30 E62 HG HF HN LT) as (f & S & L).
  exists ([240; 1] ++ f). split; [exact S|]. intros SZ. rewrite app_length in SZ. cbn [length] in SZ.
  destruct (L ltac:(lia) []) as (l' & E1 & E2). rewrite app_nil_r in E1. exists l'. split; [|exact E2].
  unfold Open. cbn [app rd Z.eqb Pos.eqb orb]. cbn [app length] in E1. rewrite Nat.min_l by (cbn [length]; lia). rewrite E1. reflexivity.
Qed.
(** The same for Load, unless the text begins with the bytes 1 and 240. *)
Corollary C93_load_partial : forall F E pre l, (length F <= 30)%nat -> (length E <= 62)%nat -> Forall good l -> Forall (few F E) l -> Forall no_crlf l -> length_of l < 2 ^ 31 ->
  exists f, Store pre (length_of l) l = Ok (pre ++ f) /\
  (Z.of_nat (length f) + 2 < 2 ^ 31 -> firstn 2 f <> [1; 240] ->
   forall tail, exists l', Load (pre ++ f ++ tail) (length pre) = Ok (l', Z.of_nat (length (shown l)), Z.of_nat (length (pre ++ f))) /\ shown l' = shown l).
Proof.
  intros F E pre l F30 E62 HG HF HN LT. destruct (trip F E pre l F30 E62 HG HF HN LT) as (f & S & (h & f' & EF) & L).
  exists f. split; [exact S|]. intros SZ NT tail. destruct (L SZ tail) as (l' & E1 & E2). exists l'. split; [|exact E2].
  unfold Load. rewrite skipn_app, skipn_all, Nat.sub_diag. cbn [skipn app].
  replace (f ++ tail) with (h mod 256 :: h / 256 mod 256 :: skipn 2 (f ++ tail)) by (rewrite EF; reflexivity). cbn [rd].
  replace (wrap_s 16 _ =? -4095) with false.
  - replace (h mod 256 :: _) with (f ++ tail) by (rewrite EF; reflexivity). exact E1.
  - symmetry. apply Z.eqb_neq. intros W. apply NT. rewrite EF. cbn [firstn LInt app].
    unfold wrap_s in W. change (2 ^ (16 - 1)) with 32768 in W. change (2 ^ 16) with 65536 in W.
    pose proof (Z.mod_pos_bound h 256 ltac:(lia)). pose proof (Z.mod_pos_bound (h / 256) 256 ltac:(lia)).
    set (a := h mod 256) in *. set (b := h / 256 mod 256) in *.
    assert (D : (a + b * 256 + 32768) mod 65536 = 28673) by lia.
    pose proof (Z.div_mod (a + b * 256 + 32768) 65536 ltac:(lia)) as DM. rewrite D in DM.
    assert (a = 1) by lia. assert (b = 240) by lia. congruence.
Qed.

(** Whatever is in a file, loading it ends: with a text or with a trap. *)
Lemma rd_shrinks : forall s, (length (snd (rd s)) <= length s)%nat.
Proof. destruct s; cbn; lia. Qed.
Lemma LInt_shrinks : forall s, (length (snd (ReadLInt s)) <= length s)%nat.
Proof.
  intros s. unfold ReadLInt. destruct s as [|? [|? [|? [|? s]]]]; cbn; lia.
Qed.
Lemma Int8_shrinks : forall s, (length (snd (ReadInt8 s)) <= length s)%nat.
Proof. destruct s; cbn; lia. Qed.
Lemma Str_shrinks : forall n s, match ReadString n s with Ok r => (length (snd r) <= length s)%nat | Trap _ => True | _ => False end.
Proof.
  induction n as [|n IH]; intros s; cbn [ReadString]; [exact I|]. pose proof (rd_shrinks s) as R. destruct (rd s) as [ch s']. cbn [snd] in R.
  destruct (ch =? 0); [exact R|]. specialize (IH s'). destruct (ReadString n s') as [r| | |]; cbn [bind]; auto. cbn [snd]. lia.
Qed.
Lemma Elem_shrinks : forall s span ecnt mf, match LoadElem s span ecnt mf with Ok (_, s', _, _) => (length s' <= length s)%nat | Trap _ => True | _ => False end.
Proof.
  intros s span ecnt mf. unfold LoadElem.
  pose proof (LInt_shrinks s) as A. destruct (ReadLInt s) as [w s1]. cbn [snd] in A.
  pose proof (LInt_shrinks s1) as B. destruct (ReadLInt s1) as [h s2]. cbn [snd] in B.
  pose proof (Int8_shrinks s2) as C. destruct (ReadInt8 s2) as [eno s3]. cbn [snd] in C.
  assert (G : forall s4 : list Z, (length s4 <= length s3)%nat -> (length (skipn (Z.to_nat span) s4) <= length s)%nat) by (intros s4 H; rewrite skipn_length; lia).
  destruct (eno >? ecnt).
  - destruct (eno >? 63); [exact I|]. pose proof (Str_shrinks 32 s3) as D. destruct (ReadString 32 s3) as [m| | |]; cbn [bind]; auto.
    pose proof (Str_shrinks 32 (snd m)) as D'. destruct (ReadString 32 (snd m)) as [p| | |]; cbn [bind]; auto. destruct (eno <? 0); [exact I|]. apply G. lia.
  - cbn [bind]. destruct (eno <? 0); [exact I|]. apply G. lia.
Qed.
Lemma load_ends : forall fuel f s pos fcnt ecnt mf, (length s <= fuel)%nat -> match load fuel f s pos fcnt ecnt mf with Ok _ | Trap _ => True | _ => False end.
Proof.
  induction fuel as [|fuel IH]; intros f s pos fcnt ecnt mf H.
  - destruct s; [|cbn in H; lia]. cbn. exact I.
  - cbn [load]. destruct s as [|b s].
    + cbn. exact I.
    + cbn in H. unfold ReadInt8 at 1. cbn [rd]. destruct (wrap_s 8 b =? 0); [exact I|].
      assert (G : forall (s1 : list Z) fc, (length s1 <= length s)%nat ->
        match (let '(c, s) := ReadInt8 s1 in let '(v, s) := ReadInt8 s in let '(plen, s) := ReadLInt s in
          if plen >? 0 then
            let un := {| fnt := None; col := c; voff := v; body := Piece (firstn (Z.to_nat plen) (skipn (Z.to_nat pos) f)) false |} in
            let* q := load fuel f s (pos + plen) fc ecnt mf in Ok (un :: fst q, snd q)
          else
            let* e := LoadElem s (- plen) ecnt mf in
            let '(b, s, ecnt, mods) := e in
            let* q := load fuel f s (pos + 1) fc ecnt mods in Ok ({| fnt := None; col := c; voff := v; body := b |} :: fst q, snd q)) with Ok _ | Trap _ => True | _ => False end).
      { intros s1 fc L1. pose proof (Int8_shrinks s1) as A. destruct (ReadInt8 s1) as [c s2]. cbn [snd] in A.
        pose proof (Int8_shrinks s2) as B. destruct (ReadInt8 s2) as [v s3]. cbn [snd] in B.
        pose proof (LInt_shrinks s3) as C. destruct (ReadLInt s3) as [plen s4]. cbn [snd] in C. destruct (plen >? 0).
        - cbn zeta. specialize (IH f s4 (pos + plen) fc ecnt mf ltac:(lia)). destruct (load fuel f s4 _ _ _ _); cbn [bind]; auto.
        - pose proof (Elem_shrinks s4 (- plen) ecnt mf) as D. destruct (LoadElem s4 _ _ _) as [[[[e s5] ec] mf']| | |]; cbn [bind]; auto.
          specialize (IH f s5 (pos + 1) fc ec mf' ltac:(lia)). destruct (load fuel f s5 _ _ _ _); cbn [bind]; auto. }
      destruct (wrap_s 8 b >? fcnt).
      * pose proof (Str_shrinks 32 s) as D. destruct (ReadString 32 s) as [r| | |]; cbn [bind]; auto. destruct (wrap_s 8 b >? 31); [exact I|]. cbn [bind]. apply G. exact D.
      * cbn [bind]. apply G. lia.
Qed.
Lemma Load0_ends : forall f p, match Load0 f p with Ok _ | Trap _ => True | _ => False end.
Proof.
  intros f p. unfold Load0. pose proof (LInt_shrinks (skipn p f)) as A. destruct (ReadLInt (skipn p f)) as [h s]. cbn [snd] in A. rewrite skipn_length in A.
  pose proof (load_ends (length f) f s (Z.of_nat p - 2 + h) 0 0 (fun _ => ([], [])) ltac:(lia)) as L. destruct (load _ _ _ _ _ _ _) as [[l s']| | |]; cbn [bind]; auto.
  destruct (ReadLInt s'). exact I.
Qed.
Theorem C93_any_file : forall f p, match Open f with Ok _ | Trap _ => True | _ => False end /\ match Load f p with Ok _ | Trap _ => True | _ => False end.
Proof.
  intros f p. split.
  - unfold Open. destruct (rd f) as [tag s]. destruct (rd s) as [version ?]. destruct (_ || _); [|exact I].
    pose proof (Load0_ends f (Nat.min 2 (length f))) as L. destruct (Load0 _ _); cbn [bind]; auto.
  - unfold Load. destruct (rd (skipn p f)) as [a s]. destruct (rd s) as [b ?]. destruct (_ =? _); apply Load0_ends.
Qed.

Definition syntax10 : list Z := [83; 121; 110; 116; 97; 120; 49; 48; 46; 83; 99; 110; 46; 70; 110; 116].
Definition letters : run := {| fnt := Some (0%nat, syntax10); col := 15; voff := -2; body := Piece [65; 66; 67] false |}.
Definition ascii_lines : run := {| fnt := Some (0%nat, syntax10); col := 15; voff := -2; body := Piece [68; 10; 69] true |}.
Definition clock : run := {| fnt := Some (1%nat, [66; 111; 108; 100]); col := 3; voff := 0; body := Elem (Some ([67; 108; 111; 99; 107], [78; 101; 119])) 360000 (-5) [1; 2; 255] |}.
Definition nameless : run := {| fnt := None; col := 3; voff := 0; body := Elem None 0 0 [] |}.
Definition sample : list run := [letters; ascii_lines; clock; nameless; clock; letters].
Definition bold : list Z := [66; 111; 108; 100].
Example C93_met : (length [syntax10; bold] <= 30)%nat /\ Forall good sample /\ Forall (few [syntax10; bold] [([67; 108; 111; 99; 107], [78; 101; 119])]) sample /\ Forall no_crlf sample /\ length_of sample < 2 ^ 31 /\
  exists f l', Close (length_of sample) sample = Ok f /\ firstn 2 (skipn 2 f) <> [1; 240] /\ Open f = Ok (l', 11) /\ length l' = 4%nat /\ shown l' = shown sample.
Proof.
  split; [cbn; lia|]. split; [|split; [|split; [|split]]].
  - unfold sample. repeat (apply Forall_cons); [..|apply Forall_nil]; unfold good, is_name, in_int; cbn;
      repeat match goal with |- _ /\ _ => split | |- Forall _ [] => apply Forall_nil | |- Forall _ _ => apply Forall_cons | |- _ <> _ => discriminate | |- True => exact I | _ => lia end.
  - unfold sample. repeat (apply Forall_cons); [..|apply Forall_nil]; unfold few, is_name; cbn;
      repeat match goal with |- _ /\ _ => split | |- exists _, _ => eexists | |- Forall _ [] => apply Forall_nil | |- Forall _ _ => apply Forall_cons | |- True => exact I | |- Some _ = _ => reflexivity | |- _ \/ _ => solve [left; reflexivity | right; left; reflexivity] | |- (length _ <= 30)%nat => cbn; lia | _ => lia end.
  - unfold sample. repeat (apply Forall_cons); [..|apply Forall_nil]; unfold no_crlf; cbn; try exact I.
    intros x y H. destruct x as [|? [|? [|? [|? x]]]]; discriminate.
  - reflexivity.
  - eexists. eexists. split; [vm_compute; reflexivity|]. split; [vm_compute; discriminate|]. split; [vm_compute; reflexivity|]. split; vm_compute; reflexivity.
Qed.
(** The full claim fails: fonts do not come back, so a text that was loaded cannot be stored again: dereferencing its fonts traps. *)
Theorem C93_store_again_refuted : exists f l' n, Close (length_of [letters]) [letters] = Ok f /\ Open f = Ok (l', n) /\ map fnt l' <> map fnt [letters] /\ Close n l' = Trap (-1).
Proof. eexists. eexists. eexists. split; [vm_compute; reflexivity|]. split; [vm_compute; reflexivity|]. split; [discriminate|reflexivity]. Qed.
(** An ascii file with CR LF shows one line end for them; the stored text shows two. *)
Theorem C93_crlf_refuted : exists f l n f' l' n', Open f = Ok (l, n) /\ Close n l = Ok f' /\ Open f' = Ok (l', n') /\ map (fun x => fst (fst x)) (shown l) = [Chr 65; Chr 13; Chr 66] /\ map (fun x => fst (fst x)) (shown l') = [Chr 65; Chr 13; Chr 13; Chr 66].
Proof. exists [65; 13; 10; 66]. eexists. eexists. eexists. eexists. eexists. split; [vm_compute; reflexivity|]. split; [vm_compute; reflexivity|]. split; [vm_compute; reflexivity|]. split; reflexivity. Qed.
(** A text of 31 fonts can be stored with one run for each, but not with a further run in one of them. *)
Definition in_font (i : nat) : run := {| fnt := Some (i, [Z.of_nat i + 1]); col := 15; voff := 0; body := Piece [65] false |}.
Theorem C93_fonts_refuted : (exists f, Close 31 (map in_font (seq 0 31)) = Ok f) /\ Close 32 (map in_font (seq 0 31) ++ [in_font 0]) = Trap (-2).
Proof. split; [eexists|]; vm_compute; reflexivity. Qed.
(** Load takes a header of 61441 bytes for a tag. *)
Definition picture (n : nat) : run := {| fnt := Some (1%nat, [66; 111; 108; 100]); col := 3; voff := 0; body := Elem (Some ([67; 108; 111; 99; 107], [78; 101; 119])) 1 1 (repeat 7 n) |}.
Theorem C93_tag_refuted : exists l f, Store [] (length_of l) l = Ok f /\ firstn 2 f = [1; 240] /\ (exists l' n p, Load0 f 0 = Ok (l', n, p)) /\ Load f 0 = Trap (-2).
Proof.
  exists [picture (Z.to_nat 61399)].
  assert (A : (let* f := Store [] (length_of [picture (Z.to_nat 61399)]) [picture (Z.to_nat 61399)] in Ok (firstn 2 f)) = Ok [1; 240]) by (vm_compute; reflexivity).
  assert (B : (let* f := Store [] (length_of [picture (Z.to_nat 61399)]) [picture (Z.to_nat 61399)] in Load f 0) = Trap (-2)) by (vm_compute; reflexivity).
  assert (C : (let* f := Store [] (length_of [picture (Z.to_nat 61399)]) [picture (Z.to_nat 61399)] in let* r := Load0 f 0 in Ok tt) = Ok tt) by (vm_compute; reflexivity).
  destruct (Store _ _ _) as [f| | |]; try discriminate. cbn [bind] in A, B, C. injection A as A. exists f. repeat split; [exact A| |exact B].
  destruct (Load0 f 0) as [[[l' n] p]| | |]; try discriminate. eauto.
Qed.
Print Assumptions C93_roundtrip_partial. Print Assumptions C93_close_open_partial. Print Assumptions C93_load_partial. Print Assumptions C93_any_file.
Print Assumptions C93_store_again_refuted. Print Assumptions C93_crlf_refuted. Print Assumptions C93_fonts_refuted. Print Assumptions C93_tag_refuted.
