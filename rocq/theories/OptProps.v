(** Options toggle and do not leak from file to file (C53). *)
From Coq Require Import Permutation.
From Verif Require Import Base OptModel.

(** The options that are on or off, with their letters (as in the usage text, OPM.Mod 252-272). *)
Definition letters : list (Z * Z) :=
  [(112, 5); (97, 7); (114, 2); (116, 3); (120, 0); (101, 9); (115, 4); (70, 17); (109, 10); (77, 15); (83, 13); (99, 14); (102, 16); (86, 18)].
(** How often a letter occurs, in option arguments without their option character. *)
Definition occurrences (c : Z) (args : list (list Z)) : nat := count_occ Z.eq_dec (concat (map (@tl Z) args)) c.
Definition odd_occurrence (c : Z) (args : list (list Z)) : bool := Nat.odd (occurrences c args).
(** An argument of toggle letters only. *)
Definition toggles (a : list Z) : Prop := exists r, a = 45 :: r /\ (forall c, In c r -> In c (map fst letters)) /\ (length a <= 255)%nat.
Definition on (g : settings) (b : Z) : bool := Z.testbit (Options g) b.

Lemma option_of_letters : forall c b, In (c, b) letters -> option_of c = Some b.
Proof. intros c b H. cbn [In letters] in H. repeat (destruct H as [H | H]; [injection H as <- <-; reflexivity |]). contradiction. Qed.
Lemma letters_inj : forall c c' b, In (c, b) letters -> In (c', b) letters -> c = c'.
Proof.
  assert (G : forallb (fun x => forallb (fun y => implb (snd x =? snd y) (fst x =? fst y)) letters) letters = true) by reflexivity. rewrite forallb_forall in G.
  intros c c' b H H'. specialize (G _ H). rewrite forallb_forall in G. specialize (G _ H'). cbn [fst snd] in G. rewrite Z.eqb_refl in G. apply Z.eqb_eq, G.
Qed.
Lemma letter_bit : forall c, In c (map fst letters) -> exists b, In (c, b) letters.
Proof. intros c H. apply in_map_iff in H as ([c' b] & E & H). cbn in E. subst. eauto. Qed.
Lemma letters_range : forall c b, In (c, b) letters -> 0 <= b.
Proof. intros c b H. cbn [In letters] in H. repeat (destruct H as [H | H]; [injection H as <- <-; lia |]). contradiction. Qed.
Lemma odd_S : forall n, Nat.odd (S n) = negb (Nat.odd n).
Proof. intros n. rewrite Nat.odd_succ, <- Nat.negb_odd. reflexivity. Qed.
Lemma scan_toggles : forall s, (forall c, In c s -> In c (map fst letters)) -> forall g,
  (forall c b, In (c, b) letters -> on (scan_options s g) b = xorb (on g b) (Nat.odd (count_occ Z.eq_dec s c))) /\
  (forall b, 0 <= b -> ~ In b (map snd letters) -> on (scan_options s g) b = on g b) /\
  Model (scan_options s g) = Model g /\ AddressSize (scan_options s g) = AddressSize g /\ Alignment (scan_options s g) = Alignment g.
Proof.
  induction s as [| c s IH]; intros HS g.
  - cbn. repeat split; auto. intros. rewrite xorb_false_r. reflexivity.
  - destruct (letter_bit c (HS c (or_introl eq_refl))) as (b & Hb). cbn [scan_options]. rewrite (option_of_letters c b Hb).
    destruct (IH (fun c' H => HS c' (or_intror H)) {| Options := Z.lxor (Options g) (2 ^ b); Model := Model g; AddressSize := AddressSize g; Alignment := Alignment g |}) as (I1 & I2 & I3 & I4 & I5).
    pose proof (letters_range c b Hb) as Rb. split; [| split; [| auto]].
    + intros c' b' Hb'. rewrite (I1 c' b' Hb'). unfold on. cbn [Options]. rewrite Z.lxor_spec, Z.pow2_bits_eqb by exact Rb. cbn [count_occ].
      destruct (Z.eq_dec c c') as [<- | N].
      * assert (b = b') as <- by (pose proof (option_of_letters _ _ Hb); pose proof (option_of_letters _ _ Hb'); congruence). rewrite Z.eqb_refl, odd_S.
        destruct (Z.testbit (Options g) b), (Nat.odd (count_occ Z.eq_dec s c)); reflexivity.
      * destruct (Z.eqb_spec b b') as [<- | Nb]; [exfalso; apply N; eapply letters_inj; eassumption |]. rewrite xorb_false_r. reflexivity.
    + intros b' Hb0 Hb'. rewrite (I2 b' Hb0 Hb'). unfold on. cbn [Options]. rewrite Z.lxor_spec, Z.pow2_bits_eqb by exact Rb. destruct (Z.eqb_spec b b') as [<- | Nb]; [| apply xorb_false_r].
      exfalso. apply Hb'. apply in_map_iff. exists (c, b). auto.
Qed.
Lemma toggles_option : forall a, toggles a -> is_option (arg a) = true /\ arg a = a.
Proof. intros a (r & -> & _ & L). unfold arg. rewrite firstn_all2 by exact L. auto. Qed.
Lemma take_toggles : forall os rest g, Forall toggles os -> (match rest with a :: _ => is_option (arg a) = false | [] => True end) ->
  exists g', take_options (os ++ rest) g = (g', rest) /\ (forall c b, In (c, b) letters -> on g' b = xorb (on g b) (odd_occurrence c os)) /\
    (forall b, 0 <= b -> ~ In b (map snd letters) -> on g' b = on g b) /\ Model g' = Model g /\ AddressSize g' = AddressSize g /\ Alignment g' = Alignment g.
Proof.
  induction os as [| a os IH]; intros rest g HF HR.
  - exists g. cbn [app]. split; [destruct rest as [| a rest]; [reflexivity |]; cbn [take_options]; rewrite HR; reflexivity |]. unfold odd_occurrence, occurrences. cbn. repeat split; auto. intros. rewrite xorb_false_r. reflexivity.
  - inversion HF as [| ? ? Ha HF']; subst. destruct (toggles_option a Ha) as [Ho Ea]. cbn [app take_options]. rewrite Ho, Ea. destruct Ha as (r & -> & Hr & HL). unfold ScanOptions. cbn [tl].
    destruct (scan_toggles r Hr g) as (S1 & S2 & S3 & S4 & S5). destruct (IH rest (scan_options r g) HF' HR) as (g' & E & I1 & I2 & I3 & I4 & I5). exists g'. split; [exact E |]. split; [| split].
    + intros c b Hb. rewrite (I1 c b Hb), (S1 c b Hb). unfold odd_occurrence, occurrences. cbn [map concat tl]. rewrite count_occ_app, Nat.odd_add, xorb_assoc. reflexivity.
    + intros b H0 Hb. rewrite (I2 b H0 Hb). apply S2; assumption.
    + repeat split; congruence.
Qed.
(** A file is followed by its options. *)
Definition is_file (a : list Z) : Prop := is_option (arg a) = false /\ (length a <= 255)%nat.
Definition command (globals : list (list Z)) (fs : list (list Z * list (list Z))) : list (list Z) := globals ++ concat (map (fun fo => fst fo :: snd fo) fs).
Definition all_options (os : list (list Z)) : Prop := Forall (fun a => is_option (arg a) = true) os.

Lemma take_app : forall os rest g, all_options os -> (match rest with a :: _ => is_option (arg a) = false | [] => True end) ->
  take_options (os ++ rest) g = (fst (take_options os g), rest).
Proof.
  induction os as [| a os IH]; intros rest g HF HR; cbn [app].
  - destruct rest as [| a rest]; cbn [take_options]; [reflexivity |]. rewrite HR. reflexivity.
  - inversion HF as [| ? ? Ha HF']; subst. cbn [take_options]. rewrite Ha. apply IH; assumption.
Qed.
Lemma rest_start : forall fs, Forall (fun fo => is_file (fst fo) /\ all_options (snd fo)) fs -> match concat (map (fun fo : list Z * list (list Z) => fst fo :: snd fo) fs) with a :: _ => is_option (arg a) = false | [] => True end.
Proof. intros fs H. destruct H as [| [f o] fs [[H1 _] _] HF]; cbn; auto. Qed.
(** The settings of a file depend on the options at the start of the command line and its own options, and on nothing else. *)
Theorem C53_no_leak : forall found globals fs, all_options globals -> Forall (fun fo => is_file (fst fo) /\ all_options (snd fo)) fs -> (forall fo, In fo fs -> found (fst fo) = true) ->
  run found (command globals fs) = map (fun fo => (fst fo, fst (InitOptions (fst (take_options globals defaults)) (snd fo)))) fs.
Proof.
  intros found globals fs HG HF HX. unfold run, command. rewrite take_app; [| exact HG | apply rest_start, HF]. generalize (fst (take_options globals defaults)) as gl. intros gl.
  assert (G : forall n, (length (concat (map (fun fo : list Z * list (list Z) => fst fo :: snd fo) fs)) <= n)%nat ->
    files n found gl (concat (map (fun fo => fst fo :: snd fo) fs)) = map (fun fo => (fst fo, fst (InitOptions gl (snd fo)))) fs); [| apply G, Nat.le_refl].
  revert HX. induction HF as [| [f o] fs [[H1 H2] H3] HF IH]; intros HX n L; [destruct n; reflexivity |]. cbn [map concat app fst snd] in *. destruct n as [| n]; [cbn [length] in L; lia |].
  cbn [files]. assert (Ef : arg f = f) by (unfold arg; apply firstn_all2, H2). pose proof (HX (f, o) (or_introl eq_refl)) as Hf. cbn [fst] in Hf. rewrite Ef, Hf.
  unfold InitOptions at 1. rewrite take_app; [| exact H3 | apply rest_start, HF]. cbn [map fst snd]. f_equal.
  - unfold InitOptions. destruct (take_options o gl). reflexivity.
  - apply IH; [intros fo HI; apply HX; right; exact HI |]. cbn [length] in L. rewrite app_length in L. lia.
Qed.
(** With toggle letters only, an option is on for a file exactly if its default and the number of times it is given, before the files and behind the file, say so;
    static linking of a main program (M) also makes it a main program (m). *)
Theorem C53_toggle : forall globals own, Forall toggles globals -> Forall toggles own -> exists g, fst (InitOptions (fst (take_options globals defaults)) own) = g /\
  (forall c b, In (c, b) letters -> let given := xorb (on defaults b) (odd_occurrence c (globals ++ own)) in
     on g b = if b =? 10 then given || xorb (on defaults 15) (odd_occurrence 77 (globals ++ own)) else given) /\
  Model g = 50 /\ AddressSize g = 8 /\ Alignment g = 8.
Proof.
  intros globals own HG HO. eexists. split; [reflexivity |]. destruct (take_toggles globals [] defaults HG I) as (g1 & E1 & A1 & _ & A3 & A4 & A5). rewrite app_nil_r in E1. rewrite E1. cbn [fst].
  destruct (take_toggles own [] g1 HO I) as (g2 & E2 & B1 & _ & B3 & B4 & B5). rewrite app_nil_r in E2. unfold InitOptions. rewrite E2. cbn [fst Options Model AddressSize Alignment].
  assert (C : forall c b, In (c, b) letters -> on g2 b = xorb (on defaults b) (odd_occurrence c (globals ++ own))).
  { intros c b Hb. rewrite (B1 c b Hb), (A1 c b Hb). unfold odd_occurrence, occurrences. rewrite map_app, concat_app, count_occ_app, Nat.odd_add, xorb_assoc. reflexivity. }
  split; [| rewrite B3, B4, B5, A3, A4, A5; auto]. intros c b Hb. cbv zeta. rewrite <- (C c b Hb). rewrite <- (C 77 15) by (cbn; tauto). unfold on. cbn [Options].
  destruct (Z.testbit (Options g2) 15) eqn:E15; destruct (Z.eqb_spec b 10) as [-> | N].
  - rewrite Z.lor_spec, Z.pow2_bits_true by lia. reflexivity.
  - rewrite Z.lor_spec, Z.pow2_bits_false by lia. apply orb_false_r.
  - rewrite orb_false_r. reflexivity.
  - reflexivity.
Qed.
(** So the order does not matter, and a letter given twice has no effect. *)
Theorem C53_order : forall globals own globals' own', Forall toggles globals -> Forall toggles own -> Forall toggles globals' -> Forall toggles own' ->
  Permutation (concat (map (@tl Z) (globals ++ own))) (concat (map (@tl Z) (globals' ++ own'))) -> forall c b, In (c, b) letters ->
  on (fst (InitOptions (fst (take_options globals defaults)) own)) b = on (fst (InitOptions (fst (take_options globals' defaults)) own')) b.
Proof.
  intros globals own globals' own' H1 H2 H3 H4 HP c b Hb. destruct (C53_toggle globals own H1 H2) as (g & -> & G & _). destruct (C53_toggle globals' own' H3 H4) as (g' & -> & G' & _).
  rewrite (G c b Hb), (G' c b Hb). assert (E : forall c, odd_occurrence c (globals ++ own) = odd_occurrence c (globals' ++ own')).
  { intros c'. unfold odd_occurrence, occurrences. f_equal. apply (proj1 (Permutation_count_occ Z.eq_dec _ _) HP). }
  cbv zeta. rewrite !E. reflexivity.
Qed.
Theorem C53_twice : forall globals own a, Forall toggles globals -> Forall toggles own -> toggles a -> forall c b, In (c, b) letters ->
  on (fst (InitOptions (fst (take_options globals defaults)) (a :: a :: own))) b = on (fst (InitOptions (fst (take_options globals defaults)) own)) b.
Proof.
  intros globals own a HG HO Ha c b Hb. destruct (C53_toggle globals own HG HO) as (g & -> & G & _). destruct (C53_toggle globals (a :: a :: own) HG ltac:(repeat constructor; assumption)) as (g' & -> & G' & _).
  rewrite (G c b Hb), (G' c b Hb). assert (E : forall c, odd_occurrence c (globals ++ a :: a :: own) = odd_occurrence c (globals ++ own)).
  { intros c'. unfold odd_occurrence, occurrences. rewrite !map_app, !concat_app. cbn [map concat]. rewrite !count_occ_app, !Nat.odd_add. rewrite <- (xorb_assoc (Nat.odd (count_occ Z.eq_dec (tl a) c'))), xorb_nilpotent, xorb_false_l. reflexivity. }
  cbv zeta. rewrite !E. reflexivity.
Qed.
(** The part of C53 that fails: the size model is not toggled, the last one given counts. *)
Theorem C53_model_refuted : exists a b, Model (fst (take_options [a; b] defaults)) <> Model (fst (take_options [b; a] defaults)) /\ Model (fst (take_options [a; a] defaults)) <> Model defaults.
Proof. exists [45; 79; 67], [45; 79; 86]. cbn. split; discriminate. Qed.
(** voc -x a.mod -r b.mod: index checks are off for both, range checks are on for a.mod only. *)
Example C53_example : run (fun _ => true) [[45; 120]; [97]; [45; 114]; [98]] =
  [([97], {| Options := 2 ^ 2 + 2 ^ 3 + 2 ^ 5 + 2 ^ 7; Model := 50; AddressSize := 8; Alignment := 8 |}); ([98], {| Options := 2 ^ 3 + 2 ^ 5 + 2 ^ 7; Model := 50; AddressSize := 8; Alignment := 8 |})] /\ toggles [45; 120].
Proof. split; [vm_compute; reflexivity |]. exists [120]. split; [reflexivity |]. split; [intros c [<- | []]; cbn; tauto | cbn; lia]. Qed.

Print Assumptions C53_no_leak.
Print Assumptions C53_toggle.
Print Assumptions C53_order.
Print Assumptions C53_twice.
