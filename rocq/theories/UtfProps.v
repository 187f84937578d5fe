(** C69: characters and strings survive the conversion to UTF-8 and back. *)
From Verif Require Import Base ArrZ OpsProps UtfModel UtfSpec UtfProofs.
Ltac Zify.zify_post_hook ::= Z.to_euclidean_division_equations.

(** Encoding one character: if there is room for it and for a 0X, exactly its UTF-8 encoding is written at the position,
    0X behind it, nothing else is changed and the position is advanced. *)
Theorem C69_encode : forall i w u p old o q, model i w -> ucs u -> zlen old = zlen (utf8 u) ->
  UCStoUTF8 w i u (p ++ old ++ o :: q) (zlen p) = Ok (true, p ++ utf8 u ++ 0 :: q, zlen p + zlen (utf8 u)).
Proof. exact encode_ok. Qed.
Print Assumptions C69_encode.

(** Without room nothing is changed and the failure is reported. *)
Theorem C69_encode_full : forall i w u a pos, model i w -> ucs u -> zlen a <= pos + zlen (utf8 u) ->
  UCStoUTF8 w i u a pos = Ok (false, a, pos).
Proof. exact encode_full. Qed.
Print Assumptions C69_encode_full.

(** Decoding the encoding of a character anywhere in an array gives the character, and the position behind it. *)
Theorem C69_decode : forall i w u p r u0, model i w -> ucs u ->
  UTF8toUCS w (p ++ utf8 u ++ r) (zlen p) u0 = Ok (true, zlen p + zlen (utf8 u), u).
Proof. exact decode_ok. Qed.
Print Assumptions C69_decode.

(** No encoding is the beginning of another one. *)
Theorem C69_unambiguous : forall u v r s, ucs u -> ucs v -> utf8 u ++ r = utf8 v ++ s -> u = v /\ r = s.
Proof.
  intros u v r s U V E.
  assert (M : model 16 32) by (left; auto).
  pose proof (C69_decode 16 32 u [] r 0 M U) as A. pose proof (C69_decode 16 32 v [] s 0 M V) as B.
  cbn [app] in A, B. rewrite E, B in A. inversion A. subst v. split; [reflexivity|].
  apply app_inv_head in E. exact E.
Qed.
Print Assumptions C69_unambiguous.

(** * Strings to UTF-8 *)
Lemma ucs_loop_ok : forall i w us k rest p a q o, model i w -> us = k ++ rest -> Forall ucs us ->
  a = p ++ o :: q -> zlen (text k) <= zlen q ->
  (rest = [] \/ exists u r, rest = u :: r /\ zlen q + 1 <= zlen (text k) + zlen (utf8 u)) ->
  ucs_loop w i us a (zlen p) =
  Ok (p ++ text k ++ match k with [] => o :: q | _ => 0 :: skipn (length (text k)) q end).
Proof.
  intros i w us. induction us as [|u us IH]; intros k rest p a q o M E F A L R.
  - destruct k; [|discriminate]. subst a. reflexivity.
  - inversion F as [|? ? U F']; subst x l. cbn [ucs_loop]. destruct k as [|k0 k].
    + cbn [app] in E. subst rest. destruct R as [R|(u' & r & R & FULL)]; [discriminate|]. inversion R; subst u' r.
      rewrite (encode_full i w) by (auto; subst a; rewrite zlen_app, zlen_cons; cbn [text flat_map] in FULL; rewrite zlen_nil in FULL; lia).
      cbn [bind]. subst a. reflexivity.
    + cbn [app] in E. inversion E; subst k0 us. cbn [text flat_map] in L, R |- *. fold (text k) in L, R |- *.
      rewrite zlen_app in L. pose proof (zlen_nonneg _ (text k)) as NN. pose proof (utf8_len u) as UL.
      set (n := length (utf8 u)). assert (N : zlen (utf8 u) = Z.of_nat n) by reflexivity.
      assert (LQ : zlen (firstn n (o :: q)) = zlen (utf8 u)).
      { unfold zlen in *. rewrite firstn_length. cbn [length]. lia. }
      destruct (skipn n (o :: q)) as [|o1 q1] eqn:SK.
      { pose proof (f_equal (@length Z) SK) as SL. rewrite skipn_length in SL. cbn [length] in SL. unfold zlen in *. lia. }
      assert (SPL : a = p ++ firstn n (o :: q) ++ o1 :: q1) by (subst a; rewrite <- SK, firstn_skipn; reflexivity).
      assert (LQ1 : zlen (o :: q) = Z.of_nat n + zlen (o1 :: q1)).
      { rewrite <- (firstn_skipn n (o :: q)), zlen_app, LQ, SK. lia. }
      rewrite !zlen_cons in LQ1. subst a. rewrite SPL. rewrite (encode_ok i w) by auto. cbn [bind].
      replace (p ++ utf8 u ++ 0 :: q1) with ((p ++ utf8 u) ++ 0 :: q1) by (rewrite <- app_assoc; reflexivity).
      replace (zlen p + zlen (utf8 u)) with (zlen (p ++ utf8 u)) by apply zlen_app.
      rewrite (IH k rest (p ++ utf8 u) _ q1 0 M eq_refl F' eq_refl).
      * rewrite <- !app_assoc. do 3 f_equal.
        assert (Q1 : q1 = skipn n q).
        { destruct n as [|n']; [lia|]. cbn [skipn] in SK.
          rewrite <- (firstn_skipn 1 (skipn n' q)) in SK.
          assert (skipn (S n') q = skipn 1 (skipn n' q)) as ->.
          { clear. revert q. induction n' as [|n' IH]; intros [|x q]; try reflexivity. cbn [skipn]. apply IH. }
          destruct (skipn n' q); [discriminate|]. cbn in SK |- *. inversion SK. reflexivity. }
        destruct k as [|k1 k].
        -- cbn [text flat_map app]. rewrite app_nil_r. fold n. congruence.
        -- f_equal. f_equal. subst q1. rewrite app_length. fold n. clear.
           revert q. generalize (length (text (k1 :: k))) as m. induction n as [|n IH]; intros m q; [reflexivity|].
           destruct q; [destruct m; reflexivity|]. cbn [skipn Nat.add]. apply IH.
      * lia.
      * destruct R as [R|(u' & r & R & FULL)]; [left; exact R|]. right. exists u', r. split; [exact R|].
        rewrite zlen_app in FULL. lia.
Qed.

(** A string becomes the UTF-8 encoding of its longest prefix that fits with its 0X; behind that nothing is changed.
    For INTEGER elements of 32 bits and LONGINT elements alike. *)
Theorem C69_to_utf8 : forall i w k rest a, model i w -> k <> [] -> Forall ucs (k ++ rest) ->
  zlen (text k) < zlen a ->
  rest = [] \/ (exists u r, rest = u :: r /\ zlen a <= zlen (text (k ++ [u]))) ->
  UCS4toUTF8 w i (k ++ rest) a = Ok (text k ++ 0 :: skipn (S (length (text k))) a) /\
  UCS2toUTF8 w i (k ++ rest) a = Ok (text k ++ 0 :: skipn (S (length (text k))) a).
Proof.
  intros i w k rest a M K F L R.
  assert (G : ucs_loop w i (k ++ rest) a 0 = Ok (text k ++ 0 :: skipn (S (length (text k))) a)).
  { destruct a as [|o q]; [rewrite zlen_nil in L; pose proof (zlen_nonneg _ (text k)); lia|].
    rewrite zlen_cons in L, R. change 0 with (zlen (@nil Z)) at 1.
    rewrite (ucs_loop_ok i w _ k rest [] (o :: q) q o M eq_refl F eq_refl).
    - destruct k; [congruence|]. reflexivity.
    - lia.
    - destruct R as [R|(u & r & R & FULL)]; [left; exact R|]. right. exists u, r. split; [exact R|].
      unfold text in FULL |- *. rewrite flat_map_app, zlen_app in FULL. cbn [flat_map] in FULL. rewrite app_nil_r in FULL. lia. }
  split; exact G.
Qed.
Print Assumptions C69_to_utf8.

(** * UTF-8 to strings *)
Lemma text_cons : forall u us, text (u :: us) = utf8 u ++ text us. Proof. reflexivity. Qed.
Lemma utf8_nonempty : forall u, (1 <= length (utf8 u))%nat.
Proof. intros u. pose proof (utf8_len u). unfold zlen in *. lia. Qed.
Lemma text_length : forall us, (length us <= length (text us))%nat.
Proof.
  induction us as [|u us IH]; [cbn; lia|]. rewrite text_cons, app_length. cbn [length]. pose proof (utf8_nonempty u). lia.
Qed.
(** At the end of a string the decoder fails or gives 0. *)
Lemma decode_end : forall w p t u0, ends t -> exists b p1 u, UTF8toUCS w (p ++ t) (zlen p) u0 = Ok (b, p1, u) /\ (b = false \/ u = 0).
Proof.
  intros w p t u0 [->|(r & ->)]; unfold UTF8toUCS.
  - rewrite app_nil_r, Z.ltb_irrefl. do 3 eexists. split; [reflexivity|auto].
  - rewrite zlen_app, zlen_cons. pose proof (zlen_nonneg _ r). rewrite (proj2 (Z.ltb_lt (zlen p) _)) by lia.
    rewrite getA_at. cbn [bind]. do 3 eexists. split; [reflexivity|auto].
Qed.
Lemma char_ucs : forall u, char u -> ucs u. Proof. unfold char, ucs. intros. lia. Qed.

Lemma ucs4_loop_ok : forall i w us fuel t p done old o q, model i w -> Forall char us -> ends t ->
  (length us < fuel)%nat -> zlen old = zlen us ->
  ucs4_loop fuel w (p ++ text us ++ t) (done ++ old ++ o :: q) (zlen p) (zlen done) =
  Ok (done ++ us ++ 0 :: q, zlen done + zlen us + 1).
Proof.
  intros i w us. induction us as [|u us IH]; intros fuel t p done old o q M F T FU L;
    (destruct fuel as [|fuel]; [lia|]); cbn [ucs4_loop].
  - destruct old; [|rewrite zlen_cons, zlen_nil in L; pose proof (zlen_nonneg _ old); lia]. cbn [text flat_map app].
    rewrite zlen_app, zlen_cons. pose proof (zlen_nonneg _ q). rewrite (proj2 (Z.ltb_lt (zlen done) _)) by lia.
    rewrite getA_at. cbn [bind]. destruct (decode_end w p t o T) as (b & p1 & u & E & H'). rewrite E. cbn [bind].
    rewrite setA_at. cbn [bind].
    assert (b && (u >? 0) = false) as -> by (destruct H' as [->| ->]; [reflexivity|apply andb_false_r]).
    rewrite setA_at. cbn [bind]. rewrite zlen_nil. do 3 f_equal. lia.
  - inversion F as [|? ? U F']; subst x l.
    destruct old as [|x old]; [rewrite zlen_cons, zlen_nil in L; pose proof (zlen_nonneg _ us); lia|].
    rewrite !zlen_cons in L. rewrite text_cons, <- app_assoc. cbn [app].
    rewrite zlen_app, zlen_cons. pose proof (zlen_nonneg _ (old ++ o :: q)). rewrite (proj2 (Z.ltb_lt (zlen done) _)) by lia.
    rewrite getA_at. cbn [bind]. rewrite (decode_ok i w) by (auto using char_ucs). cbn [bind].
    rewrite setA_at. cbn [bind]. unfold char in U. rewrite (proj2 (Z.gtb_lt u 0)) by lia. cbn [andb].
    replace (done ++ u :: old ++ o :: q) with ((done ++ [u]) ++ old ++ o :: q) by (rewrite <- app_assoc; reflexivity).
    replace (p ++ utf8 u ++ text us ++ t) with ((p ++ utf8 u) ++ text us ++ t) by (rewrite <- app_assoc; reflexivity).
    replace (zlen p + zlen (utf8 u)) with (zlen (p ++ utf8 u)) by apply zlen_app.
    replace (zlen done + 1) with (zlen (done ++ [u])) by (rewrite zlen_app, zlen_cons, zlen_nil; lia).
    cbn [length] in FU. rewrite IH; auto; [|lia|lia]. rewrite zlen_app, !zlen_cons, zlen_nil, <- app_assoc. cbn [app].
    do 3 f_equal. lia.
Qed.
Lemma ucs4_loop_full : forall i w k fuel rest p done old, model i w -> Forall char k ->
  (length k < fuel)%nat -> zlen old = zlen k ->
  ucs4_loop fuel w (p ++ text k ++ rest) (done ++ old) (zlen p) (zlen done) = Ok (done ++ k, zlen done + zlen k).
Proof.
  intros i w k. induction k as [|u us IH]; intros fuel t p done old M F FU L;
    (destruct fuel as [|fuel]; [lia|]); cbn [ucs4_loop].
  - destruct old; [|rewrite zlen_cons, zlen_nil in L; pose proof (zlen_nonneg _ old); lia]. rewrite app_nil_r, Z.ltb_irrefl.
    rewrite zlen_nil, Z.add_0_r. reflexivity.
  - inversion F as [|? ? U F']; subst x l.
    destruct old as [|x old]; [rewrite zlen_cons, zlen_nil in L; pose proof (zlen_nonneg _ us); lia|].
    rewrite !zlen_cons in L. rewrite text_cons, <- app_assoc.
    rewrite zlen_app, zlen_cons. pose proof (zlen_nonneg _ old). rewrite (proj2 (Z.ltb_lt (zlen done) _)) by lia.
    rewrite getA_at. cbn [bind]. rewrite (decode_ok i w) by (auto using char_ucs). cbn [bind].
    rewrite setA_at. cbn [bind]. unfold char in U. rewrite (proj2 (Z.gtb_lt u 0)) by lia. cbn [andb].
    replace (done ++ u :: old) with ((done ++ [u]) ++ old) by (rewrite <- app_assoc; reflexivity).
    replace (p ++ utf8 u ++ text us ++ t) with ((p ++ utf8 u) ++ text us ++ t) by (rewrite <- app_assoc; reflexivity).
    replace (zlen p + zlen (utf8 u)) with (zlen (p ++ utf8 u)) by apply zlen_app.
    replace (zlen done + 1) with (zlen (done ++ [u])) by (rewrite zlen_app, zlen_cons, zlen_nil; lia).
    cbn [length] in FU. rewrite IH; auto; [|lia|lia]. rewrite zlen_app, !zlen_cons, zlen_nil, <- app_assoc. cbn [app].
    do 2 f_equal. lia.
Qed.

(** The UTF-8 encoding of a string, with or without 0X behind it, becomes the string and a 0 from the index on, if there is
    room for them; else the array is filled with the first characters.  Nothing else is changed. *)
Theorem C69_to_ucs4 : forall i w us t p old o q, model i w -> Forall char us -> ends t -> zlen old = zlen us ->
  UTF8toUCS4 w (text us ++ t) (p ++ old ++ o :: q) (zlen p) = Ok (p ++ us ++ 0 :: q, zlen p + zlen us + 1).
Proof.
  intros i w us t p old o q M F T L. unfold UTF8toUCS4.
  apply (ucs4_loop_ok i w us _ t [] p old o q M F T); [|exact L].
  rewrite app_length. pose proof (text_length us). lia.
Qed.
Print Assumptions C69_to_ucs4.
Theorem C69_to_ucs4_full : forall i w k rest p old, model i w -> Forall char k -> zlen old = zlen k ->
  UTF8toUCS4 w (text k ++ rest) (p ++ old) (zlen p) = Ok (p ++ k, zlen p + zlen k).
Proof.
  intros i w k rest p old M F L. unfold UTF8toUCS4.
  apply (ucs4_loop_full i w k _ rest [] p old M F); [|exact L].
  rewrite app_length. pose proof (text_length k). lia.
Qed.
Print Assumptions C69_to_ucs4_full.

(** The round trip through an array of CHAR that is large enough. *)
Theorem C69_round_trip : forall i w us a p old o q, model i w -> us <> [] -> Forall char us ->
  zlen (text us) < zlen a -> zlen old = zlen us ->
  exists a1, UCS4toUTF8 w i us a = Ok a1 /\
    UTF8toUCS4 w a1 (p ++ old ++ o :: q) (zlen p) = Ok (p ++ us ++ 0 :: q, zlen p + zlen us + 1).
Proof.
  intros i w us a p old o q M NE F L LO.
  pose proof (C69_to_utf8 i w us [] a M NE) as H. rewrite app_nil_r in H.
  destruct H as [H _]; auto.
  { eapply Forall_impl; [|exact F]. exact char_ucs. }
  eexists. split; [exact H|]. apply C69_to_ucs4 with (i := i); auto. right. eexists. reflexivity.
Qed.
Print Assumptions C69_round_trip.

(** * Arrays of INTEGER *)
Lemma max_model : forall i w, model i w -> 0 < max_int i < 2 ^ 31.
Proof. intros i w [[-> _]|[-> _]]; cbn; lia. Qed.
Lemma ucs2_loop_ok : forall i w us fuel t p done old o q u0, model i w ->
  Forall (fun u => 0 < u <= max_int i) us ->
  ends t \/ q = [] ->
  (length us < fuel)%nat -> zlen old = zlen us -> (ends t \/ exists u r, ucs u /\ t = utf8 u ++ r) ->
  ucs2_loop fuel w i (p ++ text us ++ t) (done ++ old ++ o :: q) (zlen p) (zlen done) u0 =
  Ok (true, done ++ us ++ 0 :: q, zlen done + zlen us + 1).
Proof.
  intros i w us. induction us as [|u us IH]; intros fuel t p done old o q u0 M F T FU L TT;
    (destruct fuel as [|fuel]; [lia|]); cbn [ucs2_loop].
  - destruct old; [|rewrite zlen_cons, zlen_nil in L; pose proof (zlen_nonneg _ old); lia]. cbn [text flat_map app].
    assert (D : exists b p1 u, UTF8toUCS w (p ++ t) (zlen p) u0 = Ok (b, p1, u) /\ (b = false \/ u = 0 \/ q = [])).
    { destruct T as [T|T].
      - destruct (decode_end w p t u0 T) as (b & p1 & u & E & H'). exists b, p1, u. tauto.
      - destruct TT as [T'|(u & r & U & ->)].
        + destruct (decode_end w p t u0 T') as (b & p1 & u & E & H'). exists b, p1, u. tauto.
        + rewrite (decode_ok i w) by auto. do 3 eexists. split; [reflexivity|auto]. }
    destruct D as (b & p1 & u & E & H'). rewrite E. cbn [bind].
    rewrite zlen_app, zlen_cons.
    assert (b && (u >? 0) && (zlen done <? zlen done + (1 + zlen q) - 1) = false) as ->.
    { destruct H' as [->|[->| ->]]; [reflexivity|rewrite andb_false_r; reflexivity|].
      rewrite zlen_nil. rewrite (proj2 (Z.ltb_ge (zlen done) _)) by lia. apply andb_false_r. }
    pose proof (zlen_nonneg _ q). rewrite (proj2 (Z.ltb_lt (zlen done) _)) by lia. rewrite setA_at. cbn [bind].
    rewrite zlen_nil. do 3 f_equal. lia.
  - inversion F as [|? ? U F']; subst x l. pose proof (max_model i w M) as MM.
    destruct old as [|x old]; [rewrite zlen_cons, zlen_nil in L; pose proof (zlen_nonneg _ us); lia|].
    rewrite !zlen_cons in L. rewrite text_cons, <- app_assoc. cbn [app].
    rewrite (decode_ok i w) by (auto; unfold ucs; lia). cbn [bind].
    rewrite zlen_app, zlen_cons, zlen_app, zlen_cons. pose proof (zlen_nonneg _ q). pose proof (zlen_nonneg _ old).
    rewrite (proj2 (Z.ltb_lt (zlen done) _)) by lia.
    rewrite (proj2 (Z.gtb_lt u 0)) by lia. cbn [andb]. rewrite (proj2 (Z.leb_le u (max_int i))) by lia.
    assert (wrap_s i u = u) as ->.
    { apply wrap_s_id; destruct M as [[-> _]|[-> _]]; try lia; cbn in U; unfold in_int; cbn; lia. }
    rewrite setA_at. cbn [bind].
    replace (done ++ u :: old ++ o :: q) with ((done ++ [u]) ++ old ++ o :: q) by (rewrite <- app_assoc; reflexivity).
    replace (p ++ utf8 u ++ text us ++ t) with ((p ++ utf8 u) ++ text us ++ t) by (rewrite <- app_assoc; reflexivity).
    replace (zlen p + zlen (utf8 u)) with (zlen (p ++ utf8 u)) by apply zlen_app.
    replace (zlen done + 1) with (zlen (done ++ [u])) by (rewrite zlen_app, zlen_cons, zlen_nil; lia).
    cbn [length] in FU. rewrite IH; auto; [|lia|lia]. rewrite zlen_app, !zlen_cons, zlen_nil, <- app_assoc. cbn [app].
    do 3 f_equal. lia.
Qed.

(** The same for an array of INTEGER: the string and a 0, if there is room; else the first characters and a 0. *)
Theorem C69_to_ucs2 : forall i w us t p old o q, model i w -> Forall (fun u => 0 < u <= max_int i) us -> zlen old = zlen us ->
  ends t \/ (q = [] /\ exists u r, char u /\ t = utf8 u ++ r) ->
  UTF8toUCS2 w i (text us ++ t) (p ++ old ++ o :: q) (zlen p) = Ok (true, p ++ us ++ 0 :: q, zlen p + zlen us + 1).
Proof.
  intros i w us t p old o q M F L T. unfold UTF8toUCS2.
  apply (ucs2_loop_ok i w us _ t [] p old o q 0 M F); [tauto| |exact L|].
  - rewrite app_length. pose proof (text_length us). lia.
  - destruct T as [T|(_ & u & r & U & E)]; [left; exact T|]. right. exists u, r. split; [apply char_ucs; exact U|exact E].
Qed.
Print Assumptions C69_to_ucs2.

(** A character that is not in INTEGER is reported, if there was room for it. *)
Lemma ucs2_loop_bad : forall i w us fuel u t p done old o q u0, model i w ->
  Forall (fun u => 0 < u <= max_int i) us -> max_int i < u < 2 ^ 31 ->
  (length us < fuel)%nat -> zlen old = zlen us ->
  ucs2_loop fuel w i (p ++ text us ++ utf8 u ++ t) (done ++ old ++ o :: q) (zlen p) (zlen done) u0 =
  match done ++ us with
  | [] => match q with [] => Ok (true, [0], 1) | _ => Ok (false, 0 :: q, 0) end
  | _ :: r => match q with [] => Ok (true, done ++ us ++ [0], zlen done + zlen us + 1)
                         | _ => Ok (false, 0 :: r ++ o :: q, zlen done + zlen us) end
  end.
Proof.
  intros i w us. induction us as [|v us IH]; intros fuel u t p done old o q u0 M F U FU L;
    (destruct fuel as [|fuel]; [lia|]); cbn [ucs2_loop]; pose proof (max_model i w M) as MM.
  - destruct old; [|rewrite zlen_cons, zlen_nil in L; pose proof (zlen_nonneg _ old); lia]. cbn [text flat_map app].
    rewrite (decode_ok i w) by (auto; unfold ucs; lia). cbn [bind]. rewrite app_nil_r in *.
    rewrite zlen_app, zlen_cons, zlen_nil. pose proof (zlen_nonneg _ done). pose proof (zlen_nonneg _ q).
    rewrite (proj2 (Z.gtb_lt u 0)) by lia. cbn [andb].
    destruct q as [|q0 q].
    + rewrite zlen_nil. rewrite (proj2 (Z.ltb_ge (zlen done) (zlen done + (1 + 0) - 1))) by lia.
      rewrite (proj2 (Z.ltb_lt (zlen done) _)) by lia. rewrite setA_at. cbn [bind].
      destruct done as [|d done]; [reflexivity|]. cbn [app]; repeat f_equal; lia.
    + rewrite zlen_cons in *. pose proof (zlen_nonneg _ q). rewrite (proj2 (Z.ltb_lt (zlen done) _)) by lia.
      rewrite (proj2 (Z.leb_gt u (max_int i))) by lia.
      destruct done as [|d done]; [reflexivity|]. cbn [app].
      change (d :: done ++ o :: q0 :: q) with ([] ++ d :: done ++ o :: q0 :: q).
      change 0 with (zlen (@nil Z)) at 1. rewrite setA_at. cbn [bind app]. repeat f_equal; lia.
  - inversion F as [|? ? V F']; subst x l.
    destruct old as [|x old]; [rewrite zlen_cons, zlen_nil in L; pose proof (zlen_nonneg _ us); lia|].
    rewrite !zlen_cons in L. rewrite text_cons, <- app_assoc. cbn [app].
    rewrite (decode_ok i w) by (auto; unfold ucs; lia). cbn [bind].
    rewrite zlen_app, zlen_cons, zlen_app, zlen_cons. pose proof (zlen_nonneg _ q). pose proof (zlen_nonneg _ old).
    rewrite (proj2 (Z.ltb_lt (zlen done) _)) by lia.
    rewrite (proj2 (Z.gtb_lt v 0)) by lia. cbn [andb]. rewrite (proj2 (Z.leb_le v (max_int i))) by lia.
    assert (wrap_s i v = v) as ->.
    { apply wrap_s_id; destruct M as [[-> _]|[-> _]]; try lia; cbn in V; unfold in_int; cbn; lia. }
    rewrite setA_at. cbn [bind].
    replace (done ++ v :: old ++ o :: q) with ((done ++ [v]) ++ old ++ o :: q) by (rewrite <- app_assoc; reflexivity).
    replace (p ++ utf8 v ++ text us ++ utf8 u ++ t) with ((p ++ utf8 v) ++ text us ++ utf8 u ++ t) by (rewrite <- app_assoc; reflexivity).
    replace (zlen p + zlen (utf8 v)) with (zlen (p ++ utf8 v)) by apply zlen_app.
    replace (zlen done + 1) with (zlen (done ++ [v])) by (rewrite zlen_app, zlen_cons, zlen_nil; lia).
    cbn [length] in FU.
    assert (E : (done ++ [v]) ++ us = done ++ v :: us) by (rewrite <- app_assoc; reflexivity).
    rewrite (IH fuel u t (p ++ utf8 v) (done ++ [v]) old o q v); auto; [|lia|lia].
    rewrite E. rewrite zlen_app, !zlen_cons, zlen_nil.
      assert (E' : (done ++ [v]) ++ us ++ [0] = done ++ (v :: us) ++ [0]) by (rewrite <- app_assoc; reflexivity). rewrite E'.
    replace (zlen done + (1 + 0) + zlen us) with (zlen done + (1 + zlen us)) by lia.
    destruct done as [|d done]; reflexivity.
Qed.
Theorem C69_to_ucs2_too_large : forall i w us u t x old o q, model i w ->
  Forall (fun u => 0 < u <= max_int i) us -> max_int i < u < 2 ^ 31 -> zlen (x :: old) = zlen us ->
  UTF8toUCS2 w i (text us ++ utf8 u ++ t) ((x :: old) ++ o :: q) 0 =
  match q with
  | [] => Ok (true, us ++ [0], zlen us + 1)
  | _ => Ok (false, 0 :: tl us ++ o :: q, zlen us)
  end.
Proof.
  intros i w us u t x old o q M F U L. unfold UTF8toUCS2.
  destruct us as [|v us]; [rewrite zlen_cons, zlen_nil in L; pose proof (zlen_nonneg _ old); lia|].
  pose proof (ucs2_loop_bad i w (v :: us) (S (length (text (v :: us) ++ utf8 u ++ t))) u t [] [] (x :: old) o q 0 M F U) as H.
  cbn [app] in H |- *. change (zlen (@nil Z)) with 0 in H. rewrite H; [destruct q; reflexivity| |exact L].
  rewrite app_length. pose proof (text_length (v :: us)). lia.
Qed.
Print Assumptions C69_to_ucs2_too_large.

(** * Arrays of CHAR *)
Lemma ascii_loop_ok : forall i w us fuel t p done old u0, model i w -> Forall char us ->
  (length us < fuel)%nat -> zlen old = zlen us -> u0 <> 0 -> forall q,
  ascii_loop fuel w (p ++ text us ++ t) (done ++ old ++ q) (zlen p) (zlen done) u0 =
  ascii_loop (fuel - length us) w (p ++ text us ++ t) (done ++ map latin us ++ q) (zlen (p ++ text us)) (zlen done + zlen us)
    (last us u0) /\ last us u0 <> 0.
Proof.
  intros i w us. induction us as [|u us IH]; intros fuel t p done old u0 M F FU L NZ q.
  - destruct old; [|rewrite zlen_cons, zlen_nil in L; pose proof (zlen_nonneg _ old); lia].
    cbn [text flat_map app map last length]. rewrite app_nil_r, Nat.sub_0_r, zlen_nil, Z.add_0_r. auto.
  - destruct fuel as [|fuel]; [lia|]. inversion F as [|? ? U F']; subst x l.
    destruct old as [|x old]; [rewrite zlen_cons, zlen_nil in L; pose proof (zlen_nonneg _ us); lia|].
    rewrite !zlen_cons in L. rewrite text_cons, <- app_assoc. cbn [app length Nat.sub map].
    change (ascii_loop (S fuel) w (p ++ utf8 u ++ text us ++ t) (done ++ x :: old ++ q) (zlen p) (zlen done) u0) with
      (if u0 =? 0 then Ok (done ++ x :: old ++ q, zlen done) else
        let* (t0, u1) := UTF8toUCS w (p ++ utf8 u ++ text us ++ t) (zlen p) u0 in
        let (b, p1) := t0 in
        if (b : bool) && (zlen done <? zlen (done ++ x :: old ++ q)) then
          let* a := setA (done ++ x :: old ++ q) (zlen done) (if (u1 >=? 0) && (u1 <? 256) then chr u1 else 95) in
          ascii_loop fuel w (p ++ utf8 u ++ text us ++ t) a p1 (zlen done + 1) u1
        else Ok (done ++ x :: old ++ q, zlen done)).
    rewrite (proj2 (Z.eqb_neq u0 0)) by auto.
    rewrite (decode_ok i w) by (auto using char_ucs). cbn [bind].
    rewrite zlen_app, zlen_cons. pose proof (zlen_nonneg _ (old ++ q)). rewrite (proj2 (Z.ltb_lt (zlen done) _)) by lia.
    cbn [andb]. rewrite setA_at. cbn [bind]. unfold char in U.
    assert ((if (u >=? 0) && (u <? 256) then chr u else 95) = latin u) as ->.
    { unfold latin. rewrite (proj2 (Z.geb_le u 0)) by lia. cbn [andb]. destruct (u <? 256) eqn:E; [|reflexivity].
      apply Z.ltb_lt in E. unfold chr. lia. }
    replace (done ++ latin u :: old ++ q) with ((done ++ [latin u]) ++ old ++ q) by (rewrite <- app_assoc; reflexivity).
    replace (p ++ utf8 u ++ text us ++ t) with ((p ++ utf8 u) ++ text us ++ t) by (rewrite <- app_assoc; reflexivity).
    replace (zlen p + zlen (utf8 u)) with (zlen (p ++ utf8 u)) by apply zlen_app.
    replace (zlen done + 1) with (zlen (done ++ [latin u])) by (rewrite zlen_app, zlen_cons, zlen_nil; lia).
    cbn [length] in FU.
    destruct (IH fuel t (p ++ utf8 u) (done ++ [latin u]) old u M F') with (q := q) as [E1 E2]; [lia|lia|lia|].
    assert (LS : last (u :: us) u0 = last us u).
    { clear. revert u u0. induction us as [|a us IH]; intros u u0; [reflexivity|].
      change (last (u :: a :: us) u0) with (last (a :: us) u0). rewrite (IH a u0), (IH a u). reflexivity. }
    rewrite LS. split; [|exact E2]. rewrite E1. rewrite <- !app_assoc. cbn [app]. f_equal.
    rewrite !zlen_app, !zlen_cons, zlen_nil. lia.
Qed.
Lemma latin_nonzero : forall u, char u -> latin u <> 0.
Proof. unfold char, latin. intros u U. destruct (_ <? _); lia. Qed.

(** A string becomes the same characters, "_" for those above 255, and 0X, if there is room; else the first characters, and
    FALSE is returned. *)
Theorem C69_to_ascii : forall i w us t old o q lossy, model i w -> Forall char us ->
  ends t -> (us <> [] \/ t <> []) -> zlen old = zlen us ->
  UTF8toASCII w (text us ++ t) (old ++ o :: q) lossy = Ok (true, map latin us ++ 0 :: q, lossy).
Proof.
  intros i w us t old o q lossy M F T NE L. unfold UTF8toASCII.
  pose proof (text_length us) as TL.
  destruct (ascii_loop_ok i w us (S (S (length (text us ++ t)))) t [] [] old (-1) M F) with (q := o :: q) as [E1 E2];
    [rewrite app_length; lia|exact L|lia|].
  cbn [app] in E1. change (zlen (@nil Z)) with 0 in E1. rewrite E1. clear E1.
  replace (S (S (length (text us ++ t))) - length us)%nat with (S (S (length (text us ++ t) - length us))) by (rewrite app_length; lia).
  set (n := (length (text us ++ t) - length us)%nat). set (u0 := last us (-1)) in *. cbn [ascii_loop].
  rewrite (proj2 (Z.eqb_neq u0 0)) by auto.
  assert (ML : zlen (map latin us) = zlen us) by (unfold zlen; rewrite map_length; reflexivity).
  pose proof (zlen_nonneg _ q) as NQ. pose proof (zlen_nonneg _ us) as NU.
  destruct T as [->|(r & ->)].
  - rewrite app_nil_r in *. unfold UTF8toUCS. rewrite Z.ltb_irrefl. cbn [bind andb].
    destruct NE as [NE|NE]; [|congruence].
    destruct (@exists_last _ us NE) as (us' & z & ->).
    rewrite map_app, <- app_assoc. cbn [map app]. rewrite zlen_app, zlen_cons, zlen_nil.
    replace (0 + (zlen us' + (1 + 0)) - 1) with (zlen (map latin us')) by (unfold zlen; rewrite map_length; lia).
    rewrite getA_at. cbn [bind]. apply Forall_app in F. destruct F as [_ F]. inversion F as [|? ? Z _]; subst x l.
    rewrite (proj2 (Z.eqb_neq (latin z) 0)) by (apply latin_nonzero; exact Z). cbn [negb andb].
    assert (ZL : zlen (map latin us') = zlen us') by (unfold zlen; rewrite map_length; reflexivity).
    rewrite zlen_app, !zlen_cons, ZL. rewrite (proj2 (Z.ltb_lt _ _)) by lia.
    replace (map latin us' ++ latin z :: o :: q) with ((map latin us' ++ [latin z]) ++ o :: q) by (rewrite <- app_assoc; reflexivity).
    replace (0 + (zlen us' + (1 + 0))) with (zlen (map latin us' ++ [latin z])) by (rewrite zlen_app, zlen_cons, zlen_nil; lia).
    rewrite setA_at. cbn [bind]. rewrite Z.add_simpl_r, getA_at. cbn [bind]. rewrite <- app_assoc. reflexivity.
  - assert (D : UTF8toUCS w (text us ++ 0 :: r) (zlen (text us)) u0 = Ok (true, zlen (text us) + 1, 0)).
    { unfold UTF8toUCS. rewrite zlen_app, zlen_cons. pose proof (zlen_nonneg _ r).
      rewrite (proj2 (Z.ltb_lt (zlen (text us)) _)) by lia. rewrite getA_at. reflexivity. }
    rewrite D. cbn [bind]. rewrite zlen_app, zlen_cons, ML. rewrite (proj2 (Z.ltb_lt _ _)) by lia. cbn [andb].
    replace (0 + zlen us) with (zlen (map latin us)) by lia. rewrite setA_at. cbn [bind].
    cbn [Z.geb Z.compare Z.ltb andb Z.eqb]. cbn [bind]. rewrite Z.add_simpl_r.
    change (chr 0) with 0. rewrite getA_at. cbn [bind Z.eqb negb andb]. rewrite Z.add_simpl_r, getA_at. reflexivity.
Qed.
Print Assumptions C69_to_ascii.
Theorem C69_to_ascii_full : forall i w k rest old lossy, model i w -> Forall char k -> k <> [] -> zlen old = zlen k ->
  (rest = [] \/ exists u r, ucs u /\ rest = utf8 u ++ r) ->
  UTF8toASCII w (text k ++ rest) old lossy = Ok (false, map latin k, lossy).
Proof.
  intros i w us t old lossy M F NE L R. unfold UTF8toASCII.
  pose proof (text_length us) as TL.
  destruct (ascii_loop_ok i w us (S (S (length (text us ++ t)))) t [] [] old (-1) M F) with (q := @nil Z) as [E1 E2];
    [rewrite app_length; lia|exact L|lia|].
  cbn [app] in E1. change (zlen (@nil Z)) with 0 in E1. rewrite !app_nil_r in E1. rewrite E1. clear E1.
  replace (S (S (length (text us ++ t))) - length us)%nat with (S (S (length (text us ++ t) - length us))) by (rewrite app_length; lia).
  set (n := (length (text us ++ t) - length us)%nat). set (u0 := last us (-1)) in *. cbn [ascii_loop].
  rewrite (proj2 (Z.eqb_neq u0 0)) by auto.
  assert (ML : zlen (map latin us) = zlen us) by (unfold zlen; rewrite map_length; reflexivity).
  assert (D : exists b p1 u, UTF8toUCS w (text us ++ t) (zlen (text us)) u0 = Ok (b, p1, u)).
  { destruct R as [->|(u & r & U & ->)].
    - unfold UTF8toUCS. rewrite app_nil_r, Z.ltb_irrefl. eauto.
    - rewrite (decode_ok i w) by auto. eauto. }
  destruct D as (b & p1 & u & ->). cbn [bind]. rewrite ML, (proj2 (Z.ltb_ge _ _)), andb_false_r by lia. cbn [bind].
  destruct (@exists_last _ us NE) as (us' & z & ->).
  rewrite map_app. cbn [map app]. rewrite zlen_app, zlen_cons, zlen_nil.
  replace (0 + (zlen us' + (1 + 0)) - 1) with (zlen (map latin us')) by (unfold zlen; rewrite map_length; lia).
  rewrite getA_at. cbn [bind]. apply Forall_app in F. destruct F as [_ F]. inversion F as [|? ? Z _]; subst x l.
  rewrite (proj2 (Z.eqb_neq (latin z) 0)) by (apply latin_nonzero; exact Z). cbn [negb andb].
  assert (ZL : zlen (map latin us') = zlen us') by (unfold zlen; rewrite map_length; reflexivity).
  rewrite zlen_app, !zlen_cons, zlen_nil, ZL. rewrite (proj2 (Z.ltb_ge _ _)) by lia. cbn [bind].
  replace (0 + (zlen us' + (1 + 0)) - 1) with (zlen (map latin us')) by lia. rewrite getA_at. cbn [bind].
  rewrite (proj2 (Z.eqb_neq (latin z) 0)) by (apply latin_nonzero; exact Z). reflexivity.
Qed.
Print Assumptions C69_to_ascii_full.

(** Text of the 8-bit set survives the way to UTF-8 and back. *)
Lemma ascii_len_ok : forall s p r fuel, Forall (fun c => c <> 0) s -> (length s <= fuel)%nat ->
  ascii_len fuel (p ++ s ++ 0 :: r) (zlen p) = Ok (zlen p + zlen s).
Proof.
  induction s as [|c s IH]; intros p r fuel F FU.
  - cbn [app]. destruct fuel; cbn [ascii_len]; rewrite getA_at; cbn [bind Z.eqb]; rewrite zlen_nil, Z.add_0_r; reflexivity.
  - inversion F as [|? ? C F']; subst x l. destruct fuel as [|fuel]; [cbn [length] in FU; lia|]. cbn [ascii_len app].
    rewrite getA_at. cbn [bind]. rewrite (proj2 (Z.eqb_neq c 0)) by auto.
    replace (p ++ c :: s ++ 0 :: r) with ((p ++ [c]) ++ s ++ 0 :: r) by (rewrite <- app_assoc; reflexivity).
    replace (zlen p + 1) with (zlen (p ++ [c])) by (rewrite zlen_app, zlen_cons, zlen_nil; lia).
    rewrite IH; auto; [|cbn [length] in FU; lia]. rewrite zlen_app, !zlen_cons, zlen_nil. f_equal. lia.
Qed.
Theorem C69_latin1_round_trip : forall i w s r a old o q lossy, model i w -> s <> [] ->
  Forall (fun c => 0 < c < 256) s -> zlen (text s) < zlen a -> zlen old = zlen s ->
  exists a1, ASCIItoUTF8 w i (s ++ 0 :: r) a = Ok a1 /\
    UTF8toASCII w a1 (old ++ o :: q) lossy = Ok (true, s ++ 0 :: q, lossy).
Proof.
  intros i w s r a old o q lossy M NE F L LO. unfold ASCIItoUTF8.
  pose proof (ascii_len_ok s [] r (length (s ++ 0 :: r))) as AL. cbn [app] in AL. change (zlen (@nil Z)) with 0 in AL.
  rewrite AL; [|eapply Forall_impl; [|exact F]; cbv beta; intros; lia|rewrite app_length; lia].
  cbn [bind]. replace (Z.to_nat (0 + zlen s)) with (length s) by (unfold zlen; lia).
  rewrite firstn_app, Nat.sub_diag, firstn_all. cbn [firstn].
  destruct (C69_to_utf8 i w s [] a M NE) as [_ U]; auto.
  { rewrite app_nil_r. eapply Forall_impl; [|exact F]. unfold ucs; cbv beta; intros; lia. }
  eexists. split; [exact U|].
  replace (s ++ 0 :: q) with (map latin s ++ 0 :: q).
  - apply C69_to_ascii with (i := i); auto.
    + eapply Forall_impl; [|exact F]. unfold char; cbv beta; intros; lia.
    + right. eexists. reflexivity.
  - f_equal. clear - F. induction F as [|c s C F IH]; [reflexivity|]. cbn [map]. rewrite IH. f_equal.
    unfold latin. rewrite (proj2 (Z.ltb_lt c 256)) by lia. reflexivity.
Qed.
Print Assumptions C69_latin1_round_trip.

(** * What does not hold *)
(** Converting the empty string does not write a 0X: the array keeps its old contents. *)
Theorem C69_empty_string_refuted : forall w i r a,
  ASCIItoUTF8 w i (0 :: r) a = Ok a /\ UCS4toUTF8 w i [] a = Ok a /\ UCS2toUTF8 w i [] a = Ok a.
Proof. intros. repeat split; reflexivity. Qed.
Print Assumptions C69_empty_string_refuted.

(** With 16-bit INTEGER the characters U+8000 to U+FFFF are negative numbers: each becomes a single byte. *)
Theorem C69_upper_half_refuted : forall u a b r, 0x8000 <= u <= 0xFFFF ->
  UCS2toUTF8 32 16 [wrap_s 16 u] (a :: b :: r) = Ok ([u mod 256] ++ 0 :: r) /\ [u mod 256] <> utf8 u.
Proof.
  intros u a b r U. assert (W : wrap_s 16 u = u - 65536).
  { unfold wrap_s. change (2 ^ 16) with 65536. change (2 ^ (16 - 1)) with 32768. cbn zeta. lia. }
  split.
  - unfold UCS2toUTF8. cbn [ucs_loop]. unfold UCStoUTF8. rewrite W, (proj2 (Z.leb_le (u - 65536) 127)) by lia.
    rewrite !zlen_cons. pose proof (zlen_nonneg _ r). rewrite (proj2 (Z.ltb_lt _ _)) by lia.
    assert (wrap_s 16 (u - 65536) = u - 65536) as -> by (apply wrap_s_id; [lia|]; unfold in_int; change (2 ^ (16 - 1)) with 32768; lia).
    pose proof (setA_at [] a (b :: r) (chr (u - 65536))) as S0. pose proof (setA_at [chr (u - 65536)] b r 0) as S1.
    cbn [app] in S0, S1. change (zlen (@nil Z)) with 0 in S0. change (zlen [chr (u - 65536)]) with (0 + 1) in S1.
    rewrite S0. cbn [bind]. rewrite S1. cbn [bind app]. do 2 f_equal. unfold chr. lia.
  - intros E. apply (f_equal (@length Z)) in E. unfold utf8 in E.
    rewrite (proj2 (Z.ltb_ge u 128)), (proj2 (Z.ltb_ge u 2048)), (proj2 (Z.ltb_lt u 65536)) in E by lia. discriminate.
Qed.
Print Assumptions C69_upper_half_refuted.

(** Bytes that are no encoding are converted without a report: a byte 80X-BFX at the beginning, a continuation that is none,
    an encoding that is longer than necessary. *)
Theorem C69_malformed_refuted :
  UTF8toUCS 32 [0x80; 0x41; 0] 0 0 = Ok (true, 2, 1) /\
  UTF8toUCS 32 [0xC3; 0x41; 0] 0 0 = Ok (true, 2, 0xC1) /\
  UTF8toUCS 32 [0xC1; 0x81; 0] 0 0 = Ok (true, 2, 0x41) /\
  UTF8toUCS 32 [0xC0; 0x80; 0] 0 0 = Ok (true, 2, 0).
Proof. repeat split; vm_compute; reflexivity. Qed.
Print Assumptions C69_malformed_refuted.
(** A byte FEX overflows a 32-bit LONGINT. *)
Theorem C69_malformed_overflow_refuted : UTF8toUCS 32 [0xFE; 0xBF; 0xBF; 0xBF; 0xBF; 0xBF; 0xBF; 0] 0 0 = UB.
Proof. vm_compute. reflexivity. Qed.
Print Assumptions C69_malformed_overflow_refuted.
(** [lossy] is never assigned, although characters were replaced. *)
Theorem C69_lossy_refuted : forall w utf8 a l b a1 l1, UTF8toASCII w utf8 a l = Ok (b, a1, l1) -> l1 = l.
Proof.
  intros w u a l b a1 l1 E. unfold UTF8toASCII in E.
  apply bind_inv in E. destruct E as ((? & ?) & _ & E). apply bind_inv in E. destruct E as (? & _ & E).
  apply bind_inv in E. destruct E as ((? & ?) & _ & E). apply bind_inv in E. destruct E as (? & _ & E). congruence.
Qed.
Print Assumptions C69_lossy_refuted.
(** An incomplete first character: the element before the first one is read, which the index check does not notice. *)
Theorem C69_incomplete_refuted : forall a l, UTF8toASCII 32 [0xC3] a l = UB.
Proof.
  intros a l. unfold UTF8toASCII.
  replace (ascii_loop (S (S (length [0xC3]))) 32 [0xC3] a 0 0 (-1)) with (Ok (a, 0)) by reflexivity. cbn [bind].
  unfold getA. rewrite (proj2 (Z.ltb_lt _ _)) by lia. reflexivity.
Qed.
Print Assumptions C69_incomplete_refuted.

(** * A case *)
Module Case.
  (** "Aé€𐍈" and a character above 10FFFF. *)
  Definition us : list Z := [0x41; 0xE9; 0x20AC; 0x10348; 0x7FFFFFFF].
  Example enc : text us = [0x41; 0xC3; 0xA9; 0xE2; 0x82; 0xAC; 0xF0; 0x90; 0x8D; 0x88; 0xFD; 0xBF; 0xBF; 0xBF; 0xBF; 0xBF].
  Proof. vm_compute. reflexivity. Qed.
  Example chars : Forall char us. Proof. repeat constructor; vm_compute; intuition discriminate. Qed.
  Example fits : zlen (text us) < zlen (repeat 7 20). Proof. reflexivity. Qed.
  Example trip : exists a, UCS4toUTF8 32 16 us (repeat 7 20) = Ok a /\ UTF8toUCS4 32 a (repeat 7 8) 1 = Ok (7 :: us ++ [0; 7], 7).
  Proof. exists (text us ++ [0; 7; 7; 7]). split; vm_compute; reflexivity. Qed.
  Example cut : UCS4toUTF8 32 16 us (repeat 7 10) = Ok (text [0x41; 0xE9; 0x20AC] ++ [0; 7; 7; 7]). Proof. vm_compute. reflexivity. Qed.
  Example ascii : UTF8toASCII 64 (text us ++ [0]) (repeat 7 7) false = Ok (true, [0x41; 0xE9; 95; 95; 95; 0; 7], false).
  Proof. vm_compute. reflexivity. Qed.
End Case.
