(** Names in C differ from the words of C and from each other (C52). *)
From Coq Require Import String Ascii.
From Verif Require Import Base IdentModel.

(** Identifiers of Oberon: a letter and letters and digits (no underscore). *)
Definition letter (c : Z) : Prop := 65 <= c <= 90 \/ 97 <= c <= 122.
Definition identifier (s : list Z) : Prop := exists c r, s = c :: r /\ letter c /\ Forall (fun c => letter c \/ 48 <= c <= 57) r.
Definition reserved (s : list Z) : Prop := exists w, In w words /\ s = codes w.

(** ** Underscores *)
Definition plain (s : list Z) : Prop := ~ In 95 s.
Fixpoint join (ps : list (list Z)) : list Z := match ps with [] => [] | [p] => p | p :: ps => p ++ [95] ++ join ps end.
Lemma plain_split : forall p q r s, plain p -> plain q -> p ++ 95 :: r = q ++ 95 :: s -> p = q /\ r = s.
Proof.
  induction p as [| x p IH]; intros [| y q] r s P Q H; cbn [app] in H.
  - injection H as ->. auto.
  - injection H as <- _. exfalso. apply Q. left. reflexivity.
  - injection H as -> _. exfalso. apply P. left. reflexivity.
  - injection H as -> H. destruct (IH q r s) as [-> ->]; auto; [intros K; apply P; right; exact K | intros K; apply Q; right; exact K].
Qed.
Lemma join_cons : forall p q ps, join (p :: q :: ps) = p ++ 95 :: join (q :: ps).
Proof. reflexivity. Qed.
Lemma join_inj : forall ps qs, ps <> [] -> qs <> [] -> Forall plain ps -> Forall plain qs -> join ps = join qs -> ps = qs.
Proof.
  induction ps as [| p ps IH]; intros [| q qs] NP NQ P Q H; try congruence. inversion P as [| ? ? P1 P2]; subst. inversion Q as [| ? ? Q1 Q2]; subst. destruct ps as [| p' ps], qs as [| q' qs].
  - cbn in H. subst. reflexivity.
  - rewrite join_cons in H. cbn in H. exfalso. apply P1. rewrite H. apply in_or_app. right. left. reflexivity.
  - rewrite join_cons in H. cbn in H. exfalso. apply Q1. rewrite <- H. apply in_or_app. right. left. reflexivity.
  - rewrite !join_cons in H. apply plain_split in H as [-> H]; auto. f_equal. apply IH; auto; discriminate.
Qed.
Lemma identifier_plain : forall s, identifier s -> plain s /\ s <> [].
Proof.
  intros s (c & r & -> & Hc & Hr). split; [| discriminate]. intros [E | E]; [unfold letter in Hc; lia |]. rewrite Forall_forall in Hr. specialize (Hr 95 E). unfold letter in Hr. lia.
Qed.
Lemma plain_firstn : forall n s, plain s -> plain (firstn n s).
Proof. intros n s H K. apply H. rewrite <- (firstn_skipn n s). apply in_or_app. left. exact K. Qed.

(** ** Numbers of stamps *)
Definition decimal (ds : list Z) : Z := fold_left (fun v d => 10 * v + (d - 48)) ds 0.
Lemma decimal_app : forall ds es v, fold_left (fun v d => 10 * v + (d - 48)) (ds ++ es) v = fold_left (fun v d => 10 * v + (d - 48)) es (fold_left (fun v d => 10 * v + (d - 48)) ds v).
Proof. intros. apply fold_left_app. Qed.
Lemma fold_shift : forall ds v, fold_left (fun v d => 10 * v + (d - 48)) ds v = v * 10 ^ Z.of_nat (List.length ds) + decimal ds.
Proof.
  induction ds as [| d ds IH] using rev_ind; intros v; [cbn; lia |]. unfold decimal. rewrite !decimal_app. cbn [fold_left]. rewrite (IH v). fold (decimal ds). rewrite app_length. cbn [List.length].
  replace (Z.of_nat (List.length ds + 1)) with (Z.of_nat (List.length ds) + 1) by lia. rewrite Z.pow_add_r by lia. lia.
Qed.
Lemma stamp_digits_spec : forall f j ds, 0 <= j < 10 ^ Z.of_nat f -> (0 < f)%nat -> exists es, stamp_digits f j ds = es ++ ds /\ decimal es = j /\ Forall (fun d => 48 <= d <= 57) es.
Proof.
  induction f as [| f IH]; intros j ds HJ HF; [lia |]. cbn [stamp_digits]. destruct (j / 10 =? 0) eqn:E.
  - exists [j mod 10 + 48]. cbn [app]. split; [reflexivity |]. split; [unfold decimal; cbn [fold_left]; lia | constructor; [lia | constructor]].
  - destruct f as [| f]; [exfalso; cbn in HJ; lia |].
    assert (HJ' : 0 <= j / 10 < 10 ^ Z.of_nat (S f)). { replace (Z.of_nat (S (S f))) with (Z.of_nat (S f) + 1) in HJ by lia. rewrite Z.pow_add_r in HJ by lia. set (P := 10 ^ Z.of_nat (S f)) in *. clearbody P. lia. }
    destruct (IH (j / 10) ((j mod 10 + 48) :: ds) HJ' ltac:(lia)) as (es & -> & D & F). exists (es ++ [j mod 10 + 48]). split; [rewrite <- app_assoc; reflexivity |]. split.
    + unfold decimal. rewrite decimal_app. fold (decimal es). rewrite D. cbn [fold_left]. lia.
    + apply Forall_app. split; [exact F | constructor; [lia | constructor]].
Qed.
Definition digits (j : Z) : list Z := stamp_digits 10 j [].
Lemma digits_inj : forall j k, 0 <= j < 10 ^ 10 -> 0 <= k < 10 ^ 10 -> digits j = digits k -> j = k.
Proof.
  intros j k HJ HK H. unfold digits in H. destruct (stamp_digits_spec 10 j [] HJ ltac:(lia)) as (a & A1 & A2 & _). destruct (stamp_digits_spec 10 k [] HK ltac:(lia)) as (b & B1 & B2 & _). rewrite A1, B1, !app_nil_r in H. congruence.
Qed.
Lemma digits_plain : forall j, 0 <= j < 10 ^ 10 -> plain (digits j).
Proof. intros j HJ K. unfold digits in K. destruct (stamp_digits_spec 10 j [] HJ ltac:(lia)) as (a & A1 & _ & A2). rewrite A1, app_nil_r in K. rewrite Forall_forall in A2. specialize (A2 95 K). lia. Qed.

(** ** The table *)
Lemma same_spec : forall a b, same a b = true <-> a = b.
Proof.
  induction a as [| x a IH]; intros [| y b]; cbn [same]; try (split; congruence). rewrite andb_true_iff, IH, Z.eqb_eq. split; [intros [-> ->]; reflexivity | intros H; injection H as -> ->; auto].
Qed.
Lemma keytab_words : keytab = map codes words.
Proof. vm_compute. reflexivity. Qed.
Definition lost : list string := ["UINT32"; "UINT8"]%string.
Lemma entered : forall w, In w words -> ~ In w lost -> local_name (codes w) = codes w ++ [95].
Proof.
  assert (G : forallb (fun w => existsb (String.eqb w) lost || same (local_name (codes w)) (codes w ++ [95])) words = true) by (vm_compute; reflexivity). rewrite forallb_forall in G.
  intros w Hw Hl. specialize (G w Hw). apply orb_true_iff in G as [G | G]; [| apply same_spec, G]. exfalso. apply Hl. apply existsb_exists in G as (x & Hx & E). apply String.eqb_eq in E. subst. exact Hx.
Qed.
Lemma hashtab_range : forall i, nth i hashtab (-1) < 46.
Proof.
  intros i. assert (G : forallb (fun k => k <? 46) hashtab = true) by (vm_compute; reflexivity). rewrite forallb_forall in G. destruct (nth_in_or_default i hashtab (-1)) as [H | ->]; [specialize (G _ H); lia | lia].
Qed.
Lemma local_name_cases : forall s, local_name s = s \/ (reserved s /\ local_name s = s ++ [95]).
Proof.
  intros s. unfold local_name. set (k := nth (Z.to_nat (PerfectHash s)) hashtab (-1)). destruct (k >=? 0) eqn:E; [| left; reflexivity]. destruct (same (nth (Z.to_nat k) keytab []) s) eqn:ES; [| left; reflexivity].
  right. split; [| reflexivity]. apply same_spec in ES. pose proof (hashtab_range (Z.to_nat (PerfectHash s))) as HR. fold k in HR.
  assert (In s keytab). { rewrite <- ES. apply nth_In. change (List.length keytab) with 46%nat. lia. }
  rewrite keytab_words in H. apply in_map_iff in H as (w & <- & H). exists w. auto.
Qed.
(** The words have no underscore, with one exception. *)
Lemma words_plain : forall w, In w words -> plain (codes w) \/ w = "size_t"%string.
Proof.
  assert (G : forallb (fun w => negb (existsb (Z.eqb 95) (codes w)) || String.eqb w "size_t") words = true) by (vm_compute; reflexivity). rewrite forallb_forall in G.
  intros w Hw. specialize (G w Hw). apply orb_true_iff in G as [G | G]; [left | right; apply String.eqb_eq, G]. intros K. apply negb_true_iff in G. assert (existsb (Z.eqb 95) (codes w) = true) by (apply existsb_exists; exists 95; split; [exact K | reflexivity]). congruence.
Qed.
Lemma not_reserved : forall ps, Forall plain ps -> (3 <= List.length ps)%nat -> ~ reserved (join ps).
Proof.
  intros ps P L (w & Hw & E). destruct (words_plain w Hw) as [K | ->].
  - assert (ps = [codes w]) by (apply join_inj; auto; [intros ->; cbn in L; lia | discriminate]). subst. cbn in L. lia.
  - change (codes "size_t"%string) with (join [codes "size"%string; codes "t"%string]) in E.
    assert (Forall plain [codes "size"%string; codes "t"%string]) by (repeat constructor; unfold plain; cbn; lia).
    assert (ps = [codes "size"%string; codes "t"%string]) by (apply join_inj; auto; [intros ->; cbn in L; lia | discriminate]). subst. cbn in L. lia.
Qed.
Lemma stamp_join : forall s j, Stamp s j = firstn 25 s ++ 95 :: 95 :: digits j.
Proof. reflexivity. Qed.

(** ** The objects of a program *)
Definition is_stamp (j : Z) : Prop := 0 < j <= 32767.
Definition well_named (o : object) : Prop :=
  match o with
  | Local x => identifier x
  | LocalStamped x j => identifier x /\ is_stamp j
  | Limit j => is_stamp j
  | Global m x => identifier m /\ identifier x
  | Method m t x => identifier m /\ identifier t /\ identifier x
  | LocalMethod t j x => identifier t /\ is_stamp j /\ identifier x
  end.
(** The parts of the name between underscores. *)
Definition parts (o : object) : list (list Z) :=
  match o with
  | Local x => if same (local_name x) x then [x] else [x; []]
  | LocalStamped x j => [firstn 25 x; []; digits j]
  | Limit j => [[]; codes "for"; []; digits j]
  | Global m x => [m; x]
  | Method m t x => [m; t; x]
  | LocalMethod t j x => [firstn 25 t; []; digits j; x]
  end.
Lemma stamp_range : forall j, is_stamp j -> 0 <= j < 10 ^ 10.
Proof. intros j H. unfold is_stamp in H. change (10 ^ 10) with 10000000000. lia. Qed.
Lemma firstn_ne : forall s, identifier s -> firstn 25 s <> [].
Proof. intros s (c & r & -> & _) H. discriminate. Qed.
Lemma stamped_not_word : forall s j, plain s -> is_stamp j -> local_name (Stamp s j) = Stamp s j.
Proof.
  intros s j P J. destruct (local_name_cases (Stamp s j)) as [H | [H _]]; [exact H | exfalso]. rewrite stamp_join in H. change (firstn 25 s ++ 95 :: 95 :: digits j) with (join [firstn 25 s; []; digits j]) in H.
  apply not_reserved in H; [exact H | | cbn; lia]. constructor; [apply plain_firstn, P |]. constructor; [intros [] |]. constructor; [apply digits_plain, stamp_range, J | constructor].
Qed.
Lemma Ident_parts : forall o, well_named o -> Ident o = join (parts o) /\ Forall plain (parts o) /\ parts o <> [].
Proof.
  intros o W. destruct o as [x | x j | j | m x | m t x | t j x]; cbn [Ident parts well_named] in *.
  - destruct (identifier_plain x W) as [P _]. destruct (local_name_cases x) as [E | [_ E]]; rewrite E.
    + rewrite (proj2 (same_spec x x) eq_refl). split; [reflexivity |]. split; [constructor; auto | discriminate].
    + destruct (same (x ++ [95]) x) eqn:S; [apply same_spec in S; apply (f_equal (@List.length Z)) in S; rewrite app_length in S; cbn in S; lia |]. split; [cbn; reflexivity |]. split; [repeat constructor; [exact P | intros []] | discriminate].
  - destruct W as [W J]. destruct (identifier_plain x W) as [P _]. rewrite stamped_not_word by assumption. split; [reflexivity |]. split; [| discriminate].
    constructor; [apply plain_firstn, P |]. constructor; [intros [] |]. constructor; [apply digits_plain, stamp_range, J | constructor].
  - assert (E : local_name (Stamp (95 :: codes "for") j) = Stamp (95 :: codes "for") j).
    { destruct (local_name_cases (Stamp (95 :: codes "for") j)) as [H | [H _]]; [exact H | exfalso]. rewrite stamp_join in H. change (firstn 25 (95 :: codes "for") ++ 95 :: 95 :: digits j) with (join [[]; codes "for"; []; digits j]) in H.
      apply not_reserved in H; [exact H | | cbn; lia]. constructor; [intros [] |]. constructor; [unfold plain; cbn; lia |]. constructor; [intros [] |]. constructor; [apply digits_plain, stamp_range, W | constructor]. }
    rewrite E. split; [reflexivity |]. split; [| discriminate]. constructor; [intros [] |]. constructor; [unfold plain; cbn; lia |]. constructor; [intros [] |]. constructor; [apply digits_plain, stamp_range, W | constructor].
  - destruct W as [W1 W2]. destruct (identifier_plain m W1), (identifier_plain x W2). split; [reflexivity |]. split; [repeat constructor; assumption | discriminate].
  - destruct W as (W1 & W2 & W3). destruct (identifier_plain m W1), (identifier_plain t W2), (identifier_plain x W3). split; [cbn [join app]; rewrite <- app_assoc; reflexivity |]. split; [repeat constructor; assumption | discriminate].
  - destruct W as (W1 & J & W3). destruct (identifier_plain t W1) as [P1 _], (identifier_plain x W3). rewrite stamped_not_word by assumption. rewrite stamp_join. split; [cbn [join app]; rewrite <- app_assoc; reflexivity |]. split; [| discriminate].
    constructor; [apply plain_firstn, P1 |]. constructor; [intros [] |]. constructor; [apply digits_plain, stamp_range, J |]. constructor; [assumption | constructor].
Qed.
(** The names of different objects differ.  Stamps are counted up, so that no two objects have the same. *)
Definition same_object (o o' : object) : Prop :=
  match o, o' with
  | LocalStamped _ j, LocalStamped _ j' => j = j'
  | LocalMethod _ j x, LocalMethod _ j' x' => j = j' /\ x = x'
  | _, _ => o = o'
  end.
Theorem C52_distinct : forall o o', well_named o -> well_named o' -> Ident o = Ident o' -> same_object o o'.
Proof.
  intros o o' W W' H. destruct (Ident_parts o W) as (E & P & N), (Ident_parts o' W') as (E' & P' & N'). rewrite E, E' in H. apply join_inj in H; auto. clear E E' P P' N N'.
  destruct o as [x | x j | j | m x | m t x | t j x], o' as [x' | x' j' | j' | m' x' | m' t' x' | t' j' x']; cbn [parts well_named] in *;
    repeat match goal with |- context [same_object] => cbn [same_object] end;
    repeat match type of H with context [if ?b then _ else _] => destruct b end; try discriminate H;
    repeat match goal with W : _ /\ _ |- _ => destruct W end;
    try (injection H; intros; subst; reflexivity);
    try (injection H; intros; exfalso;
      repeat match goal with W : identifier ?s |- _ => destruct (identifier_plain s W); pose proof (firstn_ne s W); clear W end; try subst; congruence).
  - injection H as _ H. apply digits_inj in H; auto using stamp_range.
  - injection H as H. f_equal. apply digits_inj in H; auto using stamp_range.
  - injection H as _ K1 K2. apply digits_inj in K1; auto using stamp_range.
Qed.
(** No name is one of the words of C in the compiler's list, save UINT32 and UINT8, and t in a module size. *)
Theorem C52_words : forall o, well_named o -> (forall w, In w lost -> o <> Local (codes w)) -> o <> Global (codes "size"%string) (codes "t"%string) -> ~ reserved (Ident o).
Proof.
  intros o W HL HG HR. destruct o as [x | x j | j | m x | m t x | t j x].
  - cbn [Ident] in HR. destruct HR as (w & Hw & E). destruct (local_name_cases x) as [K | [(w' & Hw' & ->) K]].
    + rewrite K in E. subst x. destruct (in_dec string_dec w lost) as [L | L]; [apply (HL w L); reflexivity |]. rewrite (entered w Hw L) in K. apply (f_equal (@List.length Z)) in K. rewrite app_length in K. cbn in K. lia.
    + rewrite K in E. cbn [well_named] in W. destruct (identifier_plain _ W) as [P _]. change (codes w' ++ [95]) with (codes w' ++ 95 :: []) in E. destruct (words_plain w Hw) as [Q | ->].
      * apply Q. rewrite <- E. apply in_or_app. right. left. reflexivity.
      * change (codes "size_t"%string) with (codes "size"%string ++ 95 :: codes "t"%string) in E. apply plain_split in E as [_ E]; [discriminate | exact P | unfold plain; cbn; lia].
  - destruct (Ident_parts _ W) as (E & P & _). rewrite E in HR. apply not_reserved in HR; [exact HR | exact P | cbn; lia].
  - destruct (Ident_parts _ W) as (E & P & _). rewrite E in HR. apply not_reserved in HR; [exact HR | exact P | cbn; lia].
  - destruct (Ident_parts _ W) as (E & P & _). cbn [Ident] in HR. destruct HR as (w & Hw & HR). destruct W as [W1 W2]. destruct (identifier_plain m W1) as [P1 _]. destruct (words_plain w Hw) as [Q | ->].
    + apply Q. rewrite <- HR. apply in_or_app. right. left. reflexivity.
    + change (codes "size_t"%string) with (codes "size"%string ++ 95 :: codes "t"%string) in HR. apply plain_split in HR as [-> ->]; [apply HG; reflexivity | exact P1 | unfold plain; cbn; lia].
  - destruct (Ident_parts _ W) as (E & P & _). rewrite E in HR. apply not_reserved in HR; [exact HR | exact P | cbn; lia].
  - destruct (Ident_parts _ W) as (E & P & _). rewrite E in HR. apply not_reserved in HR; [exact HR | exact P | cbn; lia].
Qed.
Ltac ident := cbn [well_named]; match goal with |- identifier ?s => let v := eval vm_compute in s in change (identifier v) end; eexists; eexists; split; [reflexivity |]; split; [unfold letter; lia | repeat constructor; unfold letter; lia].
(** The exceptions are real: PerfectHash maps UINT32 and do, and UINT8 and size_t, to the same entry, so a variable UINT32 or UINT8 keeps its name. *)
Theorem C52_hash_refuted : (forall w, In w lost -> well_named (Local (codes w)) /\ In w words /\ Ident (Local (codes w)) = codes w) /\
  PerfectHash (codes "UINT32") = PerfectHash (codes "do") /\ PerfectHash (codes "UINT8") = PerfectHash (codes "size_t").
Proof. split; [| split; vm_compute; reflexivity]. intros w [<- | [<- | []]]; (split; [ident |]; split; [cbn; tauto | vm_compute; reflexivity]). Qed.
Theorem C52_size_t_refuted : well_named (Global (codes "size") (codes "t")) /\ Ident (Global (codes "size") (codes "t")) = codes "size_t".
Proof. split; [split; ident | reflexivity]. Qed.
(** Words of C that are not in the list are kept, too. *)
Theorem C52_c99_refuted : Ident (Local (codes "inline")) = codes "inline" /\ Ident (Local (codes "restrict")) = codes "restrict".
Proof. split; vm_compute; reflexivity. Qed.
Example C52_example : Ident (Local (codes "int")) = codes "int_" /\ Ident (Local (codes "x")) = codes "x" /\ Ident (LocalStamped (codes "Proc") 12) = codes "Proc__12" /\ Ident (Limit 3) = codes "_for__3" /\
  Ident (Method (codes "M") (codes "T") (codes "draw")) = codes "M_T_draw" /\ well_named (LocalStamped (codes "Proc") 12).
Proof. repeat split; try (vm_compute; reflexivity); try ident; unfold is_stamp; lia. Qed.

Print Assumptions C52_distinct.
Print Assumptions C52_words.
