(** C106: Oakwood strings. *)
From Verif Require Import Base ArrZ OakModel OakSpec.
Lemma bok : forall A B (a : A) (k : A -> res B), bind (Ok a) k = k a. Proof. reflexivity. Qed.
Lemma length_ok : forall s p q f, ~ In 0 s -> (length s < f)%nat -> length_loop f (p ++ s ++ 0 :: q) (zlen p) = Ok (zlen p + zlen s).
Proof.
  induction s as [|c s IH]; intros p q f N L; (destruct f as [|f]; [cbn in L; lia|]); cbn [length_loop app]; rewrite getA_at, bok.
  - cbn. f_equal. lia.
  - cbn [In] in N. replace (c =? 0) with false by lia. cbn [negb]. cbn [length] in L. specialize (IH (p ++ [c]) q f ltac:(tauto) ltac:(lia)). rewrite zlen_app, <- app_assoc in IH. cbn [app] in IH. change (zlen [c]) with 1 in IH. rewrite IH, zlen_cons. f_equal. lia.
Qed.
Theorem C106_length : forall a s, shows a s -> Length a = Ok (zlen s).
Proof. intros a s (N & q & ->). unfold Length. apply (length_ok s [] q); [exact N|rewrite app_length; lia]. Qed.
Lemma firstn_notin : forall n (s : list Z), ~ In 0 s -> ~ In 0 (firstn n s).
Proof. intros n s N I. apply N. rewrite <- (firstn_skipn n s). apply in_or_app. auto. Qed.
(** Append. *)
Lemma append_ok : forall t f sp_ r p y q, ~ In 0 t -> ~ In 0 p -> (length t < f \/ length q < f)%nat ->
  exists b, append_loop f (sp_ ++ t ++ 0 :: r) (p ++ y :: q) (zlen p + zlen q) (zlen p) (zlen sp_) = Ok b /\ length b = length (p ++ y :: q) /\ shows b (p ++ firstn (length q) t).
Proof.
  induction t as [|c t IH]; intros f sp_ r p y q Nt Np L; (destruct f as [|f]; [cbn in L; lia|]); cbn [append_loop app].
  - rewrite getA_at, bok. cbn [Z.eqb negb]. rewrite setA_at. exists (p ++ 0 :: q). rewrite firstn_nil, app_nil_r. split; [destruct (zlen p <? zlen p + zlen q); reflexivity|]. split; [rewrite !app_length; reflexivity|]. split; [exact Np|exists q; reflexivity].
  - rewrite getA_at, bok. cbn [In] in Nt. replace (c =? 0) with false by lia. cbn [negb]. rewrite !setA_at, bok. destruct q as [|y2 q].
    + change (zlen (@nil Z)) with 0. rewrite Z.add_0_r, Z.ltb_irrefl. exists (p ++ [0]). cbn [length firstn]. rewrite app_nil_r. split; [reflexivity|]. split; [rewrite !app_length; reflexivity|]. split; [exact Np|exists []; reflexivity].
    + rewrite (zlen_cons _ y2 q). pose proof (zlen_nonneg _ q). replace (zlen p <? zlen p + (1 + zlen q)) with true by lia.
      destruct (IH f (sp_ ++ [c]) r (p ++ [c]) y2 q ltac:(tauto)) as (b & E & Lb & Sb).
      { intros I. apply in_app_or in I. cbn [In] in I. tauto. } { cbn [length] in L. lia. }
      rewrite !zlen_app, <- !app_assoc in E. cbn [app] in E. change (zlen [c]) with 1 in E. replace (zlen p + (1 + zlen q)) with (zlen p + 1 + zlen q) by lia. exists b. split; [exact E|]. split; [rewrite Lb, !app_length; cbn [length]; lia|]. cbn [length firstn]. rewrite <- app_assoc in Sb. exact Sb.
Qed.
Theorem C106_append : forall src dst s t, shows src t -> shows dst s -> exists b, Append src dst = Ok b /\ becomes dst b (s ++ t).
Proof.
  intros src dst s t (Nt & r & Et) Hd. pose proof (C106_length dst s Hd) as L. destruct Hd as (Ns & q & Ed). unfold Append. rewrite L, bok.
  destruct (append_ok t (S (length dst)) [] r s 0 q Nt Ns ltac:(right; subst dst; rewrite app_length; cbn [length]; lia)) as (b & E & Lb & Sb). cbn [app] in E. rewrite <- Et, <- Ed in E. change (zlen (@nil Z)) with 0 in E.
  replace (zlen dst - 1) with (zlen s + zlen q) by (subst dst; rewrite zlen_app, zlen_cons; lia). exists b. split; [exact E|]. split; [rewrite Lb, <- Ed; reflexivity|].
  assert (Q : firstn (length dst - 1) (s ++ t) = s ++ firstn (length q) t). { rewrite Ed, app_length. cbn [length]. replace (length s + S (length q) - 1)%nat with (length s + length q)%nat by lia. rewrite firstn_app_2. reflexivity. } rewrite Q. exact Sb.
Qed.
(** Extract. *)
Lemma extract_ok : forall t f pre r p y q n, ~ In 0 t -> ~ In 0 p -> (length t < f)%nat -> zlen p <= n -> (n <= zlen p + zlen q \/ zlen t <= zlen q) ->
  exists b, extract_loop f (pre ++ t ++ 0 :: r) (p ++ y :: q) (zlen pre - zlen p) n (zlen p) = Ok b /\ length b = length (p ++ y :: q) /\ shows b (p ++ firstn (Z.to_nat (n - zlen p)) t).
Proof.
  induction t as [|c t IH]; intros f pre r p y q n Nt Np L Hn Hq; (destruct f as [|f]; [cbn in L; lia|]); cbn [extract_loop app]; replace (zlen pre - zlen p + zlen p) with (zlen pre) by lia; rewrite getA_at, bok.
  - cbn [Z.eqb negb]. rewrite setA_at. exists (p ++ 0 :: q). rewrite firstn_nil, app_nil_r. split; [destruct (zlen p <? n); reflexivity|]. split; [rewrite !app_length; reflexivity|]. split; [exact Np|exists q; reflexivity].
  - cbn [In] in Nt. replace (c =? 0) with false by lia. cbn [negb]. rewrite !setA_at, bok. destruct (Z.ltb_spec (zlen p) n) as [C|C].
    + destruct q as [|y2 q]. { change (zlen (@nil Z)) with 0 in Hq. rewrite zlen_cons in Hq. pose proof (zlen_nonneg _ t). lia. }
      destruct (IH f (pre ++ [c]) r (p ++ [c]) y2 q n ltac:(tauto)) as (b & E & Lb & Sb).
      { intros I. apply in_app_or in I. cbn [In] in I. tauto. } { cbn [length] in L. lia. } { rewrite zlen_app. change (zlen [c]) with 1. lia. } { rewrite zlen_app. change (zlen [c]) with 1. rewrite !zlen_cons in Hq. lia. }
      rewrite !zlen_app, <- !app_assoc in E. cbn [app] in E. change (zlen [c]) with 1 in E. replace (zlen pre + 1 - (zlen p + 1)) with (zlen pre - zlen p) in E by lia. exists b. split; [exact E|]. split; [rewrite Lb, !app_length; cbn [length]; lia|].
      rewrite zlen_app in Sb. change (zlen [c]) with 1 in Sb. replace (Z.to_nat (n - zlen p)) with (S (Z.to_nat (n - (zlen p + 1)))) by lia. cbn [firstn]. rewrite <- app_assoc in Sb. exact Sb.
    + replace (Z.to_nat (n - zlen p)) with 0%nat by lia. cbn [firstn]. rewrite app_nil_r. exists (p ++ 0 :: q). split; [reflexivity|]. split; [rewrite !app_length; reflexivity|]. split; [exact Np|exists q; reflexivity].
Qed.
Theorem C106_extract_partial : forall src dst pos n u t, shows src (u ++ t) -> zlen u = pos -> 0 <= n -> dst <> [] -> n <> zlen dst \/ zlen t < zlen dst ->
  exists b, Extract src pos n dst = Ok b /\ becomes dst b (firstn (Z.to_nat n) t).
Proof.
  intros src dst pos n u t (N & r & E) <- Hn Hd Hq. destruct dst as [|y q]; [congruence|]. unfold Extract.
  assert (Nt : ~ In 0 t) by (intros I; apply N; apply in_or_app; auto). rewrite <- app_assoc in E. rewrite !(zlen_cons _ y q) in *. set (n' := if n >? 1 + zlen q then 1 + zlen q - 1 else n). pose proof (zlen_nonneg _ q) as Nq.
  assert (R : 0 <= n' /\ (n' <= zlen q \/ zlen t <= zlen q)). { subst n'. destruct (n >? 1 + zlen q) eqn:G; lia. }
  destruct (extract_ok t (S (length src)) u r [] y q n' Nt (fun x => x)) as (b & Eb & Lb & Sb).
  { rewrite E, !app_length. lia. } { change (zlen (@nil Z)) with 0. lia. } { change (zlen (@nil Z)) with 0. lia. }
  change (zlen (@nil Z)) with 0 in *. rewrite !Z.sub_0_r in *. rewrite <- E in Eb. cbn [app] in *. exists b. split; [exact Eb|]. split; [exact Lb|].
  assert (Q : firstn (length (y :: q) - 1) (firstn (Z.to_nat n) t) = firstn (Z.to_nat n') t). { rewrite firstn_firstn. cbn [length]. replace (S (length q) - 1)%nat with (length q) by lia. unfold zlen in *. subst n'. destruct (n >? 1 + Z.of_nat (length q)) eqn:G.
    - f_equal. lia.
    - destruct (Z.le_gt_cases n (Z.of_nat (length q))) as [C|C]; [f_equal; lia|]. rewrite !firstn_all2; [reflexivity|lia|lia]. }
  rewrite Q. exact Sb.
Qed.
(** If exactly as many characters are wanted as the array has elements, the program ends with a trap instead of cutting the string. *)
Lemma extract_trap : forall q t f pre r p, (length q < f)%nat -> ~ In 0 t -> (length q <= length t)%nat -> extract_loop f (pre ++ t ++ 0 :: r) (p ++ q) (zlen pre - zlen p) (zlen p + zlen q) (zlen p) = Trap (-2).
Proof.
  induction q as [|y q IH]; intros t f pre r p L N G; (destruct f as [|f]; [cbn in L; lia|]); cbn [extract_loop].
  - change (zlen (@nil Z)) with 0. rewrite Z.add_0_r, Z.ltb_irrefl, app_nil_r. apply setA_trap. lia.
  - destruct t as [|c t]; [cbn in G; lia|]. pose proof (zlen_nonneg _ q). rewrite (zlen_cons _ y q). replace (zlen p <? zlen p + (1 + zlen q)) with true by lia. replace (zlen pre - zlen p + zlen p) with (zlen pre) by lia. cbn [app]. rewrite getA_at, bok. cbn [In] in N. replace (c =? 0) with false by lia. cbn [negb]. rewrite setA_at, bok.
    cbn [length] in *. specialize (IH t f (pre ++ [c]) r (p ++ [c]) ltac:(lia) ltac:(tauto) ltac:(lia)). rewrite !zlen_app, <- !app_assoc in IH. cbn [app] in IH. change (zlen [c]) with 1 in IH. replace (zlen pre + 1 - (zlen p + 1)) with (zlen pre - zlen p) in IH by lia. replace (zlen p + (1 + zlen q)) with (zlen p + 1 + zlen q) by lia. exact IH.
Qed.
Theorem C106_extract_refuted : forall src dst u t, shows src (u ++ t) -> zlen dst <= zlen t -> Extract src (zlen u) (zlen dst) dst = Trap (-2).
Proof.
  intros src dst u t (N & r & E) G. unfold Extract. replace (zlen dst >? zlen dst) with false by lia. rewrite <- app_assoc in E. unfold zlen in G.
  pose proof (extract_trap dst t (S (length src)) u r [] ltac:(rewrite E, !app_length; lia) ltac:(intros I; apply N; apply in_or_app; auto) ltac:(lia)) as X. rewrite <- E in X. cbn [app] in X. change (zlen (@nil Z)) with 0 in X. rewrite Z.sub_0_r, Z.add_0_l in X. exact X.
Qed.
(** Replace. *)
Lemma replace_end : forall t f sp_ r p y q, ~ In 0 t -> ~ In 0 p -> (length t < f)%nat ->
  exists b, replace_loop f (sp_ ++ t ++ 0 :: r) (p ++ y :: q) (zlen p + zlen q) (zlen p) (zlen sp_) true = Ok b /\ length b = length (p ++ y :: q) /\ shows b (p ++ firstn (length q) t).
Proof.
  induction t as [|c t IH]; intros f sp_ r p y q Nt Np L; (destruct f as [|f]; [cbn in L; lia|]); cbn [replace_loop app]; rewrite getA_at, bok.
  - cbn [Z.eqb negb andb]. rewrite setA_at. exists (p ++ 0 :: q). rewrite firstn_nil, app_nil_r. split; [reflexivity|]. split; [rewrite !app_length; reflexivity|]. split; [exact Np|exists q; reflexivity].
  - cbn [In] in Nt. replace (c =? 0) with false by lia. cbn [negb andb]. destruct q as [|y2 q].
    + change (zlen (@nil Z)) with 0. rewrite Z.add_0_r, Z.ltb_irrefl, setA_at. exists (p ++ [0]). cbn [length firstn]. rewrite app_nil_r. split; [reflexivity|]. split; [rewrite !app_length; reflexivity|]. split; [exact Np|exists []; reflexivity].
    + rewrite (zlen_cons _ y2 q). pose proof (zlen_nonneg _ q). replace (zlen p <? zlen p + (1 + zlen q)) with true by lia. rewrite getA_at, bok, setA_at, bok. cbn [orb].
      destruct (IH f (sp_ ++ [c]) r (p ++ [c]) y2 q ltac:(tauto)) as (b & E & Lb & Sb).
      { intros I. apply in_app_or in I. cbn [In] in I. tauto. } { cbn [length] in L. lia. }
      rewrite !zlen_app, <- !app_assoc in E. cbn [app] in E. change (zlen [c]) with 1 in E. replace (zlen p + (1 + zlen q)) with (zlen p + 1 + zlen q) by lia. exists b. split; [exact E|]. split; [rewrite Lb, !app_length; cbn [length]; lia|]. cbn [length firstn]. rewrite <- app_assoc in Sb. exact Sb.
Qed.
Lemma replace_ok : forall t f sp_ r p s q, ~ In 0 t -> ~ In 0 p -> ~ In 0 s -> (length t < f)%nat ->
  exists b, replace_loop f (sp_ ++ t ++ 0 :: r) (p ++ s ++ 0 :: q) (zlen p + zlen s + zlen q) (zlen p) (zlen sp_) false = Ok b /\ length b = length (p ++ s ++ 0 :: q) /\ shows b (p ++ firstn (length s + length q) (t ++ skipn (length t) s)).
Proof.
  induction t as [|c t IH]; intros f sp_ r p s q Nt Np Ns L; (destruct f as [|f]; [cbn in L; lia|]); cbn [replace_loop app]; rewrite getA_at, bok.
  - cbn [Z.eqb negb andb length skipn]. rewrite firstn_all2 by lia. eexists. split; [reflexivity|]. split; [reflexivity|]. split; [intros I; apply in_app_or in I; tauto|]. exists q. rewrite <- app_assoc. reflexivity.
  - cbn [In] in Nt. replace (c =? 0) with false by lia. cbn [negb andb]. assert (Npc : ~ In 0 (p ++ [c])) by (intros I; apply in_app_or in I; cbn [In] in I; tauto). cbn [length] in L. destruct s as [|d s].
    + change (zlen (@nil Z)) with 0. rewrite Z.add_0_r. cbn [app length Nat.add skipn]. destruct q as [|y2 q].
      * change (zlen (@nil Z)) with 0. rewrite Z.add_0_r, Z.ltb_irrefl. cbn [length firstn]. rewrite app_nil_r. eexists. split; [reflexivity|]. split; [reflexivity|]. split; [exact Np|exists []; reflexivity].
      * rewrite (zlen_cons _ y2 q). pose proof (zlen_nonneg _ q). replace (zlen p <? zlen p + (1 + zlen q)) with true by lia. rewrite getA_at, bok, setA_at, bok. cbn [orb Z.eqb].
        destruct (replace_end t f (sp_ ++ [c]) r (p ++ [c]) y2 q ltac:(tauto) Npc ltac:(lia)) as (b & E & Lb & Sb).
        rewrite !zlen_app, <- !app_assoc in E. cbn [app] in E. change (zlen [c]) with 1 in E. replace (zlen p + (1 + zlen q)) with (zlen p + 1 + zlen q) by lia. exists b. split; [exact E|]. split; [rewrite Lb, !app_length; cbn [length]; lia|]. cbn [length firstn]. rewrite app_nil_r. rewrite <- app_assoc in Sb. exact Sb.
    + cbn [In] in Ns. rewrite (zlen_cons _ d s). pose proof (zlen_nonneg _ q). pose proof (zlen_nonneg _ s). replace (zlen p <? zlen p + (1 + zlen s) + zlen q) with true by lia. cbn [app]. rewrite getA_at, bok, setA_at, bok. replace (d =? 0) with false by lia. cbn [orb].
      destruct (IH f (sp_ ++ [c]) r (p ++ [c]) s q ltac:(tauto) Npc ltac:(tauto) ltac:(lia)) as (b & E & Lb & Sb).
      rewrite !zlen_app, <- !app_assoc in E. cbn [app] in E. change (zlen [c]) with 1 in E. replace (zlen p + (1 + zlen s) + zlen q) with (zlen p + 1 + zlen s + zlen q) by lia. exists b. split; [exact E|]. split; [rewrite Lb, !app_length; cbn [length]; rewrite !app_length; cbn [length]; lia|]. cbn [length firstn skipn Nat.add]. rewrite <- app_assoc in Sb. exact Sb.
Qed.
(** The characters from a position on are replaced, the string grows where it must. *)
Theorem C106_replace : forall src dst t u s, shows src t -> shows dst (u ++ s) -> exists b, Replace src (zlen u) dst = Ok b /\ becomes dst b (u ++ t ++ skipn (length t) s).
Proof.
  intros src dst t u s (Nt & r & Et) (Nd & q & Ed). assert (Nu : ~ In 0 u /\ ~ In 0 s) by (split; intros I; apply Nd; apply in_or_app; auto). rewrite <- app_assoc in Ed. unfold Replace.
  destruct (replace_ok t (S (length src)) [] r u s q Nt (proj1 Nu) (proj2 Nu) ltac:(rewrite Et, app_length; lia)) as (b & E & Lb & Sb). cbn [app] in E. rewrite <- Et, <- Ed in E. change (zlen (@nil Z)) with 0 in E.
  replace (zlen dst - 1) with (zlen u + zlen s + zlen q) by (rewrite Ed, !zlen_app, zlen_cons; lia). exists b. split; [exact E|]. split; [rewrite Lb, <- Ed; reflexivity|].
  assert (Q : firstn (length dst - 1) (u ++ t ++ skipn (length t) s) = u ++ firstn (length s + length q) (t ++ skipn (length t) s)). { rewrite Ed, !app_length. cbn [length]. replace (length u + (length s + S (length q)) - 1)%nat with (length u + (length s + length q))%nat by lia. rewrite firstn_app_2. reflexivity. } rewrite Q. exact Sb.
Qed.
(** Delete. *)
Lemma delete_ok : forall x f p a tail, (length x < f)%nat -> exists a', delete_loop f (p ++ a ++ x ++ tail) (zlen p) (zlen p + zlen x - 1) (zlen a) = Ok (p ++ x ++ a' ++ tail) /\ length a' = length a.
Proof.
  induction x as [|c x IH]; intros f p a tail L; (destruct f as [|f]; [cbn in L; lia|]); cbn [delete_loop].
  - change (zlen (@nil Z)) with 0. replace (zlen p <=? zlen p + 0 - 1) with false by lia. exists a. split; reflexivity.
  - rewrite (zlen_cons _ c x). pose proof (zlen_nonneg _ x). replace (zlen p <=? zlen p + (1 + zlen x) - 1) with true by lia. cbn [length] in L.
    rewrite app_assoc. rewrite <- zlen_app. cbn [app]. rewrite getA_at, bok. rewrite <- app_assoc. replace (zlen p + (1 + zlen x) - 1) with (zlen p + 1 + zlen x - 1) by lia.
    destruct a as [|a0 a].
    + cbn [app]. rewrite setA_at, bok. destruct (IH f (p ++ [c]) [] tail ltac:(lia)) as (a' & E & La). rewrite zlen_app, <- !app_assoc in E. cbn [app] in E. change (zlen [c]) with 1 in E. exists a'. split; [exact E|exact La].
    + cbn [app]. rewrite setA_at, bok. destruct (IH f (p ++ [c]) (a ++ [c]) tail ltac:(lia)) as (a' & E & La). rewrite !zlen_app, <- !app_assoc in E. cbn [app] in E. change (zlen [c]) with 1 in E. rewrite zlen_cons. replace (1 + zlen a) with (zlen a + 1) by lia. exists a'. split; [exact E|]. rewrite La, app_length. cbn [length]. lia.
Qed.
Theorem C106_delete : forall a u v n, shows a (u ++ v) -> 0 <= n -> exists b, Delete a (zlen u) n = Ok b /\ length b = length a /\ shows b (u ++ skipn (Z.to_nat n) v).
Proof.
  intros a u v n H Hn. pose proof (C106_length a _ H) as L. destruct H as (N & q & E). unfold Delete. rewrite L, bok, zlen_app. rewrite <- app_assoc in E.
  assert (Nu : ~ In 0 u) by (intros I; apply N; apply in_or_app; auto). destruct (Z.ltb_spec (zlen u + n) (zlen u + zlen v)) as [C|C].
  - set (x := skipn (Z.to_nat n) v). set (w := firstn (Z.to_nat n) v). assert (V : v = w ++ x) by (symmetry; apply firstn_skipn). assert (Zw : zlen w = n) by (apply zlen_firstn; lia). assert (Zx : zlen x = zlen v - n) by (apply zlen_skipn; lia).
    destruct (delete_ok (x ++ [0]) (S (length a)) u w q) as (a' & D & La). { rewrite E, V, !app_length. cbn [length]. lia. }
    rewrite zlen_app in D. change (zlen [0]) with 1 in D. rewrite Zw, Zx in D. rewrite <- !app_assoc in D. cbn [app] in D. assert (Ea : a = u ++ w ++ x ++ 0 :: q) by (rewrite E, V, <- app_assoc; reflexivity). rewrite <- Ea in D. replace (zlen u + zlen v - n) with (zlen u + (zlen v - n + 1) - 1) by lia.
    exists (u ++ x ++ 0 :: a' ++ q). split; [exact D|]. split; [rewrite Ea, !app_length; cbn [length]; rewrite !app_length; cbn [length]; lia|]. split.
    + intros I. apply in_app_or in I. destruct I as [I|I]; [auto|]. apply N. apply in_or_app. right. rewrite V. apply in_or_app. auto.
    + exists (a' ++ q). rewrite <- app_assoc. reflexivity.
  - rewrite skipn_all2 by (unfold zlen in C; lia). rewrite app_nil_r. destruct v as [|c v]; cbn [app] in E; rewrite E, setA_at.
    + exists (u ++ 0 :: q). split; [reflexivity|]. split; [reflexivity|]. split; [exact Nu|exists q; reflexivity].
    + exists (u ++ 0 :: v ++ 0 :: q). split; [reflexivity|]. split; [rewrite !app_length; reflexivity|]. split; [exact Nu|exists (v ++ 0 :: q); reflexivity].
Qed.
(** Cap. *)
Lemma cap_letter : forall c, letter c -> CAP c = upper c.
Proof.
  intros c Hc. assert (T : forallb (fun k => let c := Z.of_nat k in negb ((65 <=? c) && (c <=? 90) || (97 <=? c) && (c <=? 122)) || (CAP c =? upper c)) (seq 0 123) = true) by (vm_compute; reflexivity).
  rewrite forallb_forall in T. unfold letter in Hc. specialize (T (Z.to_nat c) ltac:(apply in_seq; lia)). cbv zeta in T. rewrite Z2Nat.id in T by lia. lia.
Qed.
Lemma cap_ok : forall s f p q, Forall letter s -> (length s < f)%nat -> cap_loop f (p ++ s ++ 0 :: q) (zlen p) = Ok (p ++ map upper s ++ 0 :: q).
Proof.
  induction s as [|c s IH]; intros f p q F L; (destruct f as [|f]; [cbn in L; lia|]); cbn [cap_loop app map]; rewrite getA_at, bok.
  - reflexivity.
  - inversion F as [|? ? Lc F2]; subst. rewrite (cap_letter c Lc). unfold letter in Lc. replace (c =? 0) with false by lia. cbn [negb]. rewrite setA_at, bok. cbn [length] in L. specialize (IH f (p ++ [upper c]) q F2 ltac:(lia)). rewrite zlen_app, <- !app_assoc in IH. exact IH.
Qed.
Theorem C106_cap_partial : forall a s, shows a s -> Forall letter s -> exists b, Cap a = Ok b /\ length b = length a /\ shows b (map upper s).
Proof.
  intros a s (N & q & ->) F. exists (map upper s ++ 0 :: q). split; [apply (cap_ok s _ [] q F); rewrite app_length; lia|]. split; [rewrite !app_length, map_length; reflexivity|]. split; [|exists q; reflexivity].
  intros I. apply in_map_iff in I. destruct I as (c & E & I). rewrite Forall_forall in F. specialize (F c I). unfold letter, upper in *. destruct ((97 <=? c) && (c <=? 122)); lia.
Qed.
(** Other characters are changed too: a blank ends the string, a digit becomes a control character. *)
Theorem C106_cap_refuted : exists a b, shows a [97; 32; 98; 49] /\ Cap a = Ok b /\ shows b [65] /\ In 17 b.
Proof. exists [97; 32; 98; 49; 0], [65; 0; 66; 17; 0]. split; [split; [cbn; lia|exists []; reflexivity]|]. split; [vm_compute; reflexivity|]. split; [split; [cbn; lia|exists [66; 17; 0]; reflexivity]|cbn; tauto]. Qed.
(** Insert. *)
Lemma move_ok : forall x f p g tail, (length x < f)%nat -> exists g', move_loop f (p ++ x ++ g ++ tail) (zlen p + zlen x - 1) (zlen p) (zlen g) = Ok (p ++ g' ++ x ++ tail) /\ length g' = length g.
Proof.
  intros x. induction x as [|c x IH] using rev_ind; intros f p g tail L; (destruct f as [|f]; [cbn in L; lia|]); cbn [move_loop].
  - change (zlen (@nil Z)) with 0. replace (zlen p + 0 - 1 >=? zlen p) with false by lia. exists g. split; reflexivity.
  - rewrite zlen_app. change (zlen [c]) with 1. pose proof (zlen_nonneg _ x). replace (zlen p + (zlen x + 1) - 1 >=? zlen p) with true by lia. rewrite app_length in L. cbn [length] in L.
    replace (zlen p + (zlen x + 1) - 1) with (zlen (p ++ x)) by (rewrite zlen_app; lia).
    assert (E0 : p ++ (x ++ [c]) ++ g ++ tail = (p ++ x) ++ c :: g ++ tail) by (rewrite <- !app_assoc; reflexivity). rewrite E0, getA_at, bok.
    destruct (@exists_last _ (c :: g) ltac:(discriminate)) as (g0 & gl & Eg).
    assert (Lg : length g0 = length g) by (assert (X : length (c :: g) = length (g0 ++ [gl])) by congruence; rewrite app_length in X; cbn [length] in X; lia).
    assert (E1 : (p ++ x) ++ c :: g ++ tail = ((p ++ x) ++ g0) ++ gl :: tail) by (change (c :: g ++ tail) with ((c :: g) ++ tail); rewrite Eg, <- !app_assoc; reflexivity).
    assert (E2 : zlen (p ++ x) + zlen g = zlen ((p ++ x) ++ g0)) by (rewrite (zlen_app _ (p ++ x) g0); unfold zlen; lia).
    rewrite E1, E2, setA_at, bok. destruct (IH f p g0 (c :: tail) ltac:(lia)) as (g' & E & La). exists g'. split; [|lia]. rewrite zlen_app. replace (zlen g) with (zlen g0) by (unfold zlen; lia). rewrite <- !app_assoc. cbn [app]. exact E.
Qed.
Lemma copy_ok : forall t f sp_ r p g tail, length g = length t -> (length t < f)%nat -> copy_loop f (sp_ ++ t ++ r) (p ++ g ++ tail) (zlen p - zlen sp_) (zlen sp_) (zlen sp_ + zlen t - 1) = Ok (p ++ t ++ tail).
Proof.
  induction t as [|c t IH]; intros f sp_ r p g tail Lg L; (destruct f as [|f]; [cbn in L; lia|]); cbn [copy_loop].
  - destruct g; [|discriminate]. change (zlen (@nil Z)) with 0. replace (zlen sp_ <=? zlen sp_ + 0 - 1) with false by lia. reflexivity.
  - destruct g as [|g0 g]; [discriminate|]. rewrite (zlen_cons _ c t). pose proof (zlen_nonneg _ t). replace (zlen sp_ <=? zlen sp_ + (1 + zlen t) - 1) with true by lia. cbn [app]. rewrite getA_at, bok. replace (zlen p - zlen sp_ + zlen sp_) with (zlen p) by lia. rewrite setA_at, bok. cbn [length] in *.
    specialize (IH f (sp_ ++ [c]) r (p ++ [c]) g tail ltac:(lia) ltac:(lia)). rewrite !zlen_app, <- !app_assoc in IH. cbn [app] in IH. change (zlen [c]) with 1 in IH. replace (zlen p + 1 - (zlen sp_ + 1)) with (zlen p - zlen sp_) in IH by lia. replace (zlen sp_ + (1 + zlen t) - 1) with (zlen sp_ + 1 + zlen t - 1) by lia. exact IH.
Qed.
Lemma copy0 : forall t f r p g tail, length g = length t -> (length t < f)%nat -> copy_loop f (t ++ r) (p ++ g ++ tail) (zlen p) 0 (zlen t - 1) = Ok (p ++ t ++ tail).
Proof. intros t f r p g tail Lg L. pose proof (copy_ok t f [] r p g tail Lg L) as X. change (zlen (@nil Z)) with 0 in X. rewrite Z.sub_0_r, Z.add_0_l in X. exact X. Qed.
Lemma in_app3 : forall (u t v : list Z), ~ In 0 u -> ~ In 0 t -> ~ In 0 v -> ~ In 0 (u ++ t ++ v).
Proof. intros u t v A B C I. apply in_app_or in I. destruct I as [I|I]; [auto|]. apply in_app_or in I. tauto. Qed.
(** The string is inserted at the position, and the result cut to the array. *)
Theorem C106_insert : forall src dst t u v, shows src t -> shows dst (u ++ v) -> exists b, Insert src (zlen u) dst = Ok b /\ becomes dst b (u ++ t ++ v).
Proof.
  intros src dst t u v Hs Hd. pose proof (C106_length _ _ Hs) as L1. pose proof (C106_length _ _ Hd) as L2. destruct Hs as (Nt & r & Es). destruct Hd as (Nd & q & Ed). assert (Nu : ~ In 0 u /\ ~ In 0 v) by (split; intros I; apply Nd; apply in_or_app; auto). destruct Nu as [Nu Nv]. rewrite <- app_assoc in Ed.
  unfold Insert. rewrite L1, L2, !bok. cbv zeta. rewrite zlen_app. assert (Ld : zlen dst = zlen u + zlen v + 1 + zlen q) by (rewrite Ed, !zlen_app, zlen_cons; lia). pose proof (zlen_nonneg _ u) as Zu. pose proof (zlen_nonneg _ v) as Zv. pose proof (zlen_nonneg _ t) as Zt. pose proof (zlen_nonneg _ q) as Zq.
  assert (Lsrc : (length t < S (length src))%nat) by (rewrite Es, app_length; lia).
  destruct (Z.ltb_spec (zlen u + zlen t) (zlen dst - 1)) as [C|C].
  - (* room for something behind the inserted string *)
    assert (G : forall v' q', ~ In 0 v' -> zlen v' + zlen q' = zlen v + zlen q -> zlen t <= zlen q' -> v' = firstn (length dst - 1 - length u - length t) v -> exists b, (let* dst0 := move_loop (S (length dst)) (u ++ v' ++ 0 :: q') (zlen u + zlen v') (zlen u) (zlen t) in copy_loop (S (length src)) src dst0 (zlen u) 0 (zlen t - 1)) = Ok b /\ becomes dst b (u ++ t ++ v)).
    { intros v' q' N' Z' Q' V'. set (g := firstn (Z.to_nat (zlen t)) q'). set (tl := skipn (Z.to_nat (zlen t)) q'). assert (Eq : q' = g ++ tl) by (symmetry; apply firstn_skipn). assert (Zg : zlen g = zlen t) by (apply zlen_firstn; lia).
      destruct (move_ok (v' ++ [0]) (S (length dst)) u g tl) as (g' & M & Lg). { rewrite app_length. cbn [length]. unfold zlen in *. lia. }
      rewrite zlen_app in M. change (zlen [0]) with 1 in M. replace (zlen u + (zlen v' + 1) - 1) with (zlen u + zlen v') in M by lia. rewrite Zg in M. assert (E0 : u ++ (v' ++ [0]) ++ g ++ tl = u ++ v' ++ 0 :: q') by (rewrite Eq, <- !app_assoc; reflexivity). rewrite E0 in M. rewrite M, bok. pose proof (copy0 t (S (length src)) (0 :: r) u g' ((v' ++ [0]) ++ tl) ltac:(unfold zlen in Zg; lia) Lsrc) as Y. rewrite <- Es in Y. rewrite Y. clear Y.
      eexists. split; [reflexivity|]. split.
      - rewrite !app_length. cbn [length]. assert (zlen q' = zlen g + zlen tl) by (rewrite Eq at 1; apply zlen_app). unfold zlen in *. lia.
      - assert (Q : firstn (length dst - 1) (u ++ t ++ v) = u ++ t ++ v').
        { assert (X : (length dst - 1 = length u + (length t + (length dst - 1 - length u - length t)))%nat) by (unfold zlen in *; lia). rewrite X at 1. rewrite !firstn_app_2. rewrite <- V'. reflexivity. }
        rewrite Q. split; [apply in_app3; auto|]. exists tl. rewrite <- !app_assoc. reflexivity. }
    destruct (zlen u + zlen v + zlen t >? zlen dst - 1) eqn:T.
    + (* the old string is cut first *)
      set (k := zlen dst - 1 - zlen t - zlen u). assert (K : 0 <= k < zlen v) by (subst k; lia). destruct (skipn (Z.to_nat k) v) as [|c w] eqn:Ew. { assert (X : zlen (skipn (Z.to_nat k) v) = zlen v - k) by (apply zlen_skipn; lia). rewrite Ew in X. change (zlen (@nil Z)) with 0 in X. lia. }
      set (v' := firstn (Z.to_nat k) v). assert (Zv' : zlen v' = k) by (apply zlen_firstn; lia). assert (Ev : v = v' ++ c :: w) by (rewrite <- Ew; symmetry; apply firstn_skipn).
      assert (E1 : dst = (u ++ v') ++ c :: w ++ 0 :: q) by (rewrite Ed, Ev, <- !app_assoc; reflexivity).
      assert (S1 : setA dst (zlen dst - 1 - zlen t) 0 = Ok ((u ++ v') ++ 0 :: w ++ 0 :: q)). { replace (zlen dst - 1 - zlen t) with (zlen (u ++ v')) by (rewrite zlen_app; subst k; lia). rewrite E1. apply setA_at. }
      rewrite S1, !bok. replace (length ((u ++ v') ++ 0 :: w ++ 0 :: q)) with (length dst) by (rewrite E1, !app_length; reflexivity). rewrite <- app_assoc. replace (zlen dst - 1 - zlen t) with (zlen u + zlen v') by (subst k; lia).
      assert (Zvw : zlen v = zlen v' + (1 + zlen w)) by (transitivity (zlen (v' ++ c :: w)); [congruence|rewrite zlen_app, zlen_cons; reflexivity]).
      apply G.
      * apply firstn_notin. exact Nv.
      * rewrite zlen_app, zlen_cons. lia.
      * rewrite zlen_app, zlen_cons. subst k. lia.
      * subst v' k. f_equal. unfold zlen. lia.
    + rewrite bok. specialize (G v q Nv eq_refl ltac:(lia)). rewrite <- Ed in G. apply G. rewrite firstn_all2; [reflexivity|]. unfold zlen in *. lia.
  - destruct (@exists_last _ (v ++ 0 :: q)) as (g & y & Eg). { destruct v; discriminate. }
    assert (E1 : dst = (u ++ g) ++ y :: []) by (rewrite Ed, Eg, <- app_assoc; reflexivity). assert (Zg : zlen g = zlen dst - 1 - zlen u) by (rewrite E1, !zlen_app; change (zlen [y]) with 1; lia).
    assert (S1 : setA dst (zlen dst - 1) 0 = Ok ((u ++ g) ++ 0 :: [])). { replace (zlen dst - 1) with (zlen (u ++ g)) by (rewrite zlen_app; lia). rewrite E1 at 1. apply setA_at. }
    rewrite S1, bok. rewrite <- app_assoc. set (t1 := firstn (length g) t). assert (Lt : length t1 = length g) by (subst t1; rewrite firstn_length; unfold zlen in *; lia).
    assert (E2 : src = t1 ++ skipn (length g) t ++ 0 :: r) by (rewrite Es, app_assoc; subst t1; rewrite firstn_skipn; reflexivity). replace (zlen dst - 1 - zlen u - 1) with (zlen t1 - 1) by (unfold zlen in *; lia). pose proof (copy0 t1 (S (length src)) (skipn (length g) t ++ 0 :: r) u g [0] ltac:(lia) ltac:(rewrite E2, app_length; lia)) as Y. rewrite <- E2 in Y. rewrite Y. clear Y.
    eexists. split; [reflexivity|]. split; [rewrite E1, !app_length; cbn [length]; lia|].
    assert (Q : firstn (length dst - 1) (u ++ t ++ v) = u ++ t1). { replace (length dst - 1)%nat with (length u + length g)%nat by (unfold zlen in *; lia). rewrite firstn_app_2. f_equal. rewrite firstn_app. replace (length g - length t)%nat with 0%nat by (unfold zlen in *; lia). cbn [firstn]. apply app_nil_r. }
    rewrite Q. split; [intros I; apply in_app_or in I; destruct I as [I|I]; [auto|]; apply (firstn_notin _ _ Nt I)|]. exists []. rewrite <- app_assoc. reflexivity.
Qed.
(** Pos. *)
Lemma pos_step : forall f pat s pos posPat, pos_loop (S f) pat s pos posPat = (let* p := getA pat posPat in if p =? 0 then Ok (pos - posPat) else let* c := getA s pos in if c =? 0 then Ok (-1) else if c =? p then pos_loop f pat s (pos + 1) (posPat + 1) else pos_loop f pat s (pos - posPat + 1) 0).
Proof. reflexivity. Qed.
Lemma pos_inner : forall r1 r2 p2 p1 u w f, ~ In 0 p2 -> ~ In 0 w ->
  let run := pos_loop (S (length p2) + f) (p1 ++ p2 ++ 0 :: r1) (u ++ p1 ++ w ++ 0 :: r2) (zlen u + zlen p1) (zlen p1) in
  ((exists v, w = p2 ++ v) /\ run = Ok (zlen u)) \/ ((length w < length p2)%nat /\ run = Ok (-1)) \/
  (~ (exists v, w = p2 ++ v) /\ w <> [] /\ exists f', (f <= f')%nat /\ run = pos_loop f' (p1 ++ p2 ++ 0 :: r1) (u ++ p1 ++ w ++ 0 :: r2) (zlen u + 1) 0).
Proof.
  intros r1 r2. induction p2 as [|c p2 IH]; intros p1 u w f Np Nw; cbv zeta; cbn [length]; rewrite Nat.add_succ_l, pos_step; cbn [app].
  - rewrite getA_at, bok. cbn [Z.eqb]. left. split; [exists w; reflexivity|f_equal; lia].
  - rewrite getA_at, bok. cbn [In] in Np. replace (c =? 0) with false by lia. rewrite <- zlen_app, (app_assoc u p1). destruct w as [|d w].
    + cbn [app]. rewrite getA_at, bok. right. left. split; [cbn [length]; lia|reflexivity].
    + cbn [app]. rewrite getA_at, bok. cbn [In] in Nw. replace (d =? 0) with false by lia. destruct (Z.eqb_spec d c) as [->|C].
      * specialize (IH (p1 ++ [c]) u w f ltac:(tauto) ltac:(tauto)). cbv zeta in IH. rewrite !zlen_app in *. change (zlen [c]) with 1 in IH. rewrite <- !app_assoc in *. cbn [app] in IH. rewrite Z.add_assoc in IH. destruct IH as [((v & ->) & E)|[(L & E)|(N & Nn & f' & Lf & E)]].
        -- left. split; [exists v; reflexivity|exact E].
        -- right. left. split; [cbn [length]; lia|exact E].
        -- right. right. split; [intros (v & Q); apply N; exists v; cbn [app] in Q; congruence|]. split; [discriminate|]. exists f'. split; [exact Lf|exact E].
      * right. right. split; [intros (v & Q); cbn [app] in Q; congruence|]. split; [discriminate|]. exists (S (length p2) + f)%nat. split; [lia|]. rewrite zlen_app. replace (zlen u + zlen p1 - zlen p1 + 1) with (zlen u + 1) by lia. rewrite <- ?app_assoc. reflexivity.
Qed.
(** The first occurrence from a position on is found, or its absence reported. *)
Theorem C106_pos : forall pa sa x u w, shows pa x -> shows sa (u ++ w) -> exists k, Pos pa sa (zlen u) = Ok k /\
  ((k = -1 /\ forall j, zlen u <= j -> ~ occurs x (u ++ w) j) \/ (zlen u <= k /\ occurs x (u ++ w) k /\ forall j, zlen u <= j < k -> ~ occurs x (u ++ w) j)).
Proof.
  intros pa sa x u w (Nx & r1 & Ep) (Ns & r2 & Es). unfold Pos.
  assert (G : forall w u F, sa = (u ++ w) ++ 0 :: r2 -> ~ In 0 (u ++ w) -> (S (length x) * S (length w) <= F)%nat -> exists k, pos_loop F pa sa (zlen u) 0 = Ok k /\
    ((k = -1 /\ forall j, zlen u <= j -> ~ occurs x (u ++ w) j) \/ (zlen u <= k /\ occurs x (u ++ w) k /\ forall j, zlen u <= j < k -> ~ occurs x (u ++ w) j))).
  { clear w u Ns Es. intros w. induction w as [|d w IH]; intros u F Es Ns LF;
      (assert (Nw : ~ In 0 (skipn (length u) (u ++ _)) ) by (intros I; apply Ns; rewrite <- (firstn_skipn (length u)); apply in_or_app; right; exact I); rewrite skipn_app, skipn_all, Nat.sub_diag in Nw; cbn [skipn app] in Nw);
      match goal with |- context [u ++ ?w0] => pose proof (pos_inner r1 r2 x [] u w0 (F - S (length x)) Nx Nw) as X end; cbv zeta in X; cbn [app] in X; rewrite <- Ep in X; change (zlen (@nil Z)) with 0 in X; rewrite Z.add_0_r in X;
      (replace (S (length x) + (F - S (length x)))%nat with F in X by (cbn [length] in LF; nia)); rewrite <- app_assoc in Es; cbn [app] in Es; rewrite <- Es in X.
    - destruct X as [((v & E) & R)|[(L & R)|(_ & N & _)]]; [| |congruence].
      + exists (zlen u). split; [exact R|]. right. split; [lia|]. split; [exists u, v; rewrite <- E; split; reflexivity|intros j Hj; lia].
      + exists (-1). split; [exact R|]. left. split; [reflexivity|]. intros j Hj (a & b & E & La). assert (Q : length (u ++ []) = length (a ++ x ++ b)) by congruence. rewrite !app_length in Q. cbn [length] in *. unfold zlen in Hj. lia.
    - destruct X as [((v & E) & R)|[(L & R)|(N & _ & f' & Lf & R)]].
      + exists (zlen u). split; [exact R|]. right. split; [lia|]. split; [exists u, v; rewrite <- E; split; reflexivity|intros j Hj; lia].
      + exists (-1). split; [exact R|]. left. split; [reflexivity|]. intros j Hj (a & b & E & La). assert (Q : length (u ++ d :: w) = length (a ++ x ++ b)) by congruence. rewrite !app_length in Q. cbn [length] in *. unfold zlen in Hj. lia.
      + assert (N0 : forall j, j = zlen u -> ~ occurs x (u ++ d :: w) j). { intros j -> (a & b & E & La). apply N. exists b. unfold zlen in La. assert (La2 : length a = length u) by lia. apply (f_equal (skipn (length u))) in E. rewrite skipn_app, skipn_all, Nat.sub_diag in E. cbn [skipn app] in E. rewrite <- La2 in E. rewrite skipn_app, skipn_all, Nat.sub_diag in E. exact E. }
        assert (E2 : u ++ d :: w = (u ++ [d]) ++ w) by (rewrite <- app_assoc; reflexivity).
        destruct (IH (u ++ [d]) f') as (k & R2 & S2). { rewrite Es, <- !app_assoc. reflexivity. } { rewrite <- E2. exact Ns. } { cbn [length] in LF. nia. }
        rewrite zlen_app in R2, S2. change (zlen [d]) with 1 in R2, S2. rewrite <- E2 in S2. exists k. split; [congruence|]. destruct S2 as [(-> & S2)|(K & O & S2)].
        * left. split; [reflexivity|]. intros j Hj. destruct (Z.eq_dec j (zlen u)) as [Q|Q]; [apply N0; exact Q|apply S2; lia].
        * right. split; [lia|]. split; [exact O|]. intros j Hj. destruct (Z.eq_dec j (zlen u)) as [Q|Q]; [apply N0; exact Q|apply S2; lia]. }
  apply G; [exact Es|exact Ns|]. rewrite Ep at 1. rewrite Es, !app_length. cbn [length]. nia.
Qed.
(** Arrays that meet the hypotheses. *)
Example C106_met : shows [65; 66; 0; 9; 9] [65; 66] /\ shows [67; 68; 69; 0] ([67] ++ [68; 69]) /\ Append [67; 68; 69; 0] [65; 66; 0; 9; 9] = Ok [65; 66; 67; 68; 0] /\
  Replace [67; 68; 69; 0] 1 [65; 66; 0; 9; 9] = Ok [65; 67; 68; 69; 0] /\ Extract [67; 68; 69; 0] 1 9 [1; 2] = Ok [68; 0] /\ Extract [67; 68; 69; 0] 1 2 [1; 2] = Trap (-2).
Proof. split; [split; [cbn; lia|exists [9; 9]; reflexivity]|]. split; [split; [cbn; lia|exists []; reflexivity]|]. repeat split; vm_compute; reflexivity. Qed.

Print Assumptions C106_length.
Print Assumptions C106_append.
Print Assumptions C106_extract_partial.
Print Assumptions C106_extract_refuted.
Print Assumptions C106_replace.
Print Assumptions C106_delete.
Print Assumptions C106_cap_partial.
Print Assumptions C106_cap_refuted.
Print Assumptions C106_insert.
Print Assumptions C106_pos.
