(** Writers, readers, opening (for C32). *)
From Verif Require Import Base TextsModel TextsSpec TextsRing TextsLocal TextsOps TextsOps3.

(** The last run of the buffer ends where the writer's file ends, if it is a piece of that file. *)
Definition tip (files : nat -> list Z) (m : mem) (f : nat) (l : list loc) : Prop :=
  forall l' a o asc, l = l' ++ [a] -> kd (bd m a) = Piece f o asc ->
    asc = false /\ o + lenof m a = Z.of_nat (length (files f)).

Lemma sub_snoc : forall l o n c, 0 <= o -> 0 <= n -> o + n = Z.of_nat (length l) -> sub (l ++ [c]) o (n + 1) = sub l o n ++ [c].
Proof.
  intros l o n c H1 H2 H3. rewrite sub_app by lia. rewrite sub_file_app by lia. f_equal.
  unfold sub. replace (Z.to_nat (o + n)) with (length l) by lia. rewrite skipn_exact by reflexivity. reflexivity.
Qed.
Lemma grows_snoc : forall files n f c, grows files (upd files f (files f ++ [c])) n n.
Proof.
  intros. split; auto. intros g _. destruct (Nat.eq_dec g f) as [->|N].
  - rewrite upd_eq. eauto.
  - rewrite upd_neq by auto. exists []. rewrite app_nil_r. auto.
Qed.

Lemma Write_ok : forall files n m W B bl ch wf, Bok files n m B bl -> wfnt W = Some wf -> (wfile W < n)%nat -> tip files m (wfile W) bl ->
  let files' := upd files (wfile W) (files (wfile W) ++ [ch]) in
  exists m' B' bl', Write m W B (files (wfile W)) ch = Ok (m', B', files (wfile W) ++ [ch]) /\ bhead B' = bhead B /\
    Bok files' n m' B' bl' /\
    content files' m' bl' = content files m bl ++ [char_item ch (wfnt W) (wcol W) (wvoff W) false] /\
    tip files' m' (wfile W) bl' /\ (exists l' a o, bl' = l' ++ [a] /\ kd (bd m' a) = Piece (wfile W) o false) /\
    keeps m m' (bhead B :: bl) /\ from m m' (bhead B :: bl) bl'.
Proof.
  intros files n m W B bl ch wf BK FW FN TP files'.
  assert (G : grows files files' n n) by apply grows_snoc.
  destruct (Bok_frame files files' n n m m B bl BK ltac:(intros; repeat split) (le_n _) G) as [BK' CC].
  destruct BK' as (R & H & O & L & BB). set (hb := bhead B) in *.
  destruct BK as (_ & _ & O0 & _ & _).
  assert (PU : pv m hb = List.last bl hb).
  { apply (ring_prev m hb bl []). rewrite app_nil_r. exact R. }
  set (F := files (wfile W)) in *.
  assert (FF : files' (wfile W) = F ++ [ch]) by apply upd_eq.
  set (item := char_item ch (wfnt W) (wcol W) (wvoff W) false).
  set (nb := {| len := 1; fnt := wfnt W; col := wcol W; voff := wvoff W;
                kd := Piece (wfile W) (Z.of_nat (length (F ++ [ch])) - 1) false |}).
  assert (SN : let m1 := {| nx := nx m; pv := pv m; bd := upd (bd m) (nxt m) nb; nxt := S (nxt m) |} in
    let m2 := set_pv (set_nx m1 (List.last bl hb) (nxt m)) (nxt m) (List.last bl hb) in
    let m' := set_pv (set_nx m2 (nxt m) hb) hb (nxt m) in
    exists m'' B' bl', Ok (m', {| blen := blen B + 1; bhead := hb |}, F ++ [ch]) = Ok (m'', B', F ++ [ch]) /\ bhead B' = hb /\
      Bok files' n m'' B' bl' /\ content files' m'' bl' = content files m bl ++ [item] /\
      tip files' m'' (wfile W) bl' /\ (exists l' a o, bl' = l' ++ [a] /\ kd (bd m'' a) = Piece (wfile W) o false) /\
      keeps m m'' (hb :: bl) /\ from m m'' (hb :: bl) bl').
  { cbv zeta.
    match goal with |- context [set_pv (set_nx ?M (nxt m) hb) hb (nxt m)] => set (m2 := M) end.
    assert (OB : body_ok files' n None nb).
    { split; [exists wf; exact FW|]. cbn [kd nb len]. rewrite FF, app_length. cbn [length]. conjs. }
    destruct (snoc_run files' n m hb bl nb m2 (ring_chain _ _ _ R) BB O OB) as (J1 & J2 & J3 & J4 & J5 & J6 & J7 & J8);
      try (intros a; reflexivity); [reflexivity|].
    pose proof (chain_close _ _ _ J1) as RC. rewrite last_app1 in RC.
    set (m' := set_pv (set_nx m2 (nxt m) hb) hb (nxt m)) in *.
    do 2 eexists. exists (bl ++ [nxt m]). split; [reflexivity|]. split; [reflexivity|].
    assert (IT : items files' nb = [item]).
    { unfold items. cbn [kd nb len fnt col voff]. rewrite FF, app_length. cbn [length].
      replace (Z.of_nat (length F + 1) - 1) with (Z.of_nat (length F)) by lia. unfold sub.
      rewrite Nat2Z.id, skipn_exact by reflexivity. reflexivity. }
    split.
    { split; [exact RC|]. cbn [bhead blen]. split; [change (bd m' hb) with (bd m2 hb); congruence|]. split; [exact J3|]. split; [|exact J2].
      cbn [blen]. rewrite L. etransitivity; [|symmetry; etransitivity; [apply (total_ext m2 m'); reflexivity|exact J5]]. reflexivity. }
    split.
    { etransitivity; [apply (content_ext files' m2 m'); reflexivity|]. rewrite J4, IT, CC. reflexivity. }
    split.
    { intros l' a o asc E K. apply app_inj_tail in E as [_ <-].
      assert (BN : bd m' (nxt m) = nb) by (unfold m', m2; cbn [bd set_nx set_pv]; apply upd_eq).
      unfold lenof. rewrite BN in *. cbn [nb kd len] in *. injection K as <- <-. split; [reflexivity|]. rewrite FF. lia. }
    split.
    { exists bl, (nxt m), (Z.of_nat (length (F ++ [ch])) - 1). split; [reflexivity|].
      assert (BN : bd m' (nxt m) = nb) by (unfold m', m2; cbn [bd set_nx set_pv]; apply upd_eq). rewrite BN. reflexivity. }
    split; [|exact J8].
    eapply keeps_trans; [exact J7| |].
    - split; [apply le_n|]. intros a A N. pose proof (close_frame m2 hb (bl ++ [nxt m]) a N) as Q. rewrite last_app1 in Q. exact Q.
    - intros a [A|A]; [left; left; auto|apply J8; auto]. }
  cbv zeta in SN. unfold Write. fold F. fold hb. rewrite PU. cbn [new].
  destruct (snoc_cases _ bl) as [->|(bl0 & u & ->)].
  { cbn [List.last] in *. rewrite H. cbn [kd headrun bind]. exact SN. }
  rewrite last_app1 in *.
  assert (Iu : In u (bl0 ++ [u])) by (apply in_app_iff; right; left; auto).
  destruct (O0 u Iu) as [(fu & EF) K].
  destruct (kd (bd m u)) as [|f o a|i c] eqn:EK; cbn [bind]; [exact SN| |exact SN].
  destruct (Nat.eqb f (wfile W)) eqn:E1; cbn [bind]; [|exact SN].
  rewrite EF, FW. cbn [same_name bind]. 
  destruct (list_eq_dec Z.eq_dec fu wf) as [->|]; cbn [andb]; [|rewrite <- FW; exact SN].
  destruct (col (bd m u) =? wcol W) eqn:E2; cbn [andb]; [|rewrite <- FW; exact SN].
  destruct (voff (bd m u) =? wvoff W) eqn:E3; cbn [andb]; [|rewrite <- FW; exact SN].
  destruct a; cbn [negb]; [rewrite <- FW; exact SN|]. clear SN.
  apply Nat.eqb_eq in E1. subst f. apply Z.eqb_eq in E2, E3.
  destruct (TP bl0 u o false eq_refl EK) as [_ TU]. fold F in TU. destruct K as (K1 & K2 & K3 & K4). unfold lenof in *.
  set (bu := set_len (bd m u) (len (bd m u) + 1)). set (m' := set_bd m u bu).
  assert (BU : bd m' u = bu) by (unfold m'; cbn [bd set_bd]; apply upd_eq).
  assert (BO : forall a, a <> u -> bd m' a = bd m a) by (intros; unfold m'; cbn [bd set_bd]; apply upd_neq; auto).
  pose proof R as (_ & _ & D). destruct (nodup_mid _ _ _ _ _ D) as (D1 & D2 & _).
  assert (BL : forall a, In a bl0 -> bd m' a = bd m a) by (intros a A; apply BO; intros ->; auto).
  assert (OBU : body_ok files' n None bu).
  { split; [exists wf; exact EF|]. cbn [bu kd set_len len]. rewrite EK, FF, app_length. cbn [length]. lia. }
  do 2 eexists. exists (bl0 ++ [u]). split; [reflexivity|]. split; [reflexivity|]. split.
  { split; [apply ring_bd; exact R|]. cbn [bhead blen]. split; [rewrite BO by auto; exact H|]. split.
    { intros a A. apply in_app_iff in A as [A|[<-|[]]]; [rewrite BL by auto; apply O; apply in_app_iff; auto|rewrite BU; exact OBU]. }
    split; [|exact BB]. cbn [blen]. rewrite L, !total_app. cbn [total]. rewrite (total_ext m m' bl0 BL). unfold lenof. rewrite BU. cbn [bu len set_len]. lia. }
  split.
  { rewrite <- CC, !content_app, (content_ext files' m m' bl0 BL), <- app_assoc. f_equal. cbn [content flat_map]. rewrite BU, !app_nil_r.
    unfold items. cbn [bu kd set_len len fnt col voff]. rewrite EK, FF, sub_snoc by lia. rewrite sub_file_app by lia. rewrite map_app. f_equal.
    cbn [map]. unfold item. rewrite EF, FW, E2, E3. reflexivity. }
  split.
  { intros l' a o' asc E K. apply app_inj_tail in E as [_ <-]. unfold lenof. rewrite BU in *. cbn [bu kd set_len len] in *.
    rewrite EK in K. injection K as <- <-. split; [reflexivity|]. rewrite FF, app_length. cbn [length]. lia. }
  split; [exists bl0, u, o; rewrite BU; split; [reflexivity|exact EK]|].
  split; [|apply from_refl; intros a A; right; auto].
  split; [apply le_n|]. intros a A N. split; [reflexivity|]. split; [reflexivity|]. apply BO. intros ->. apply N. right. exact Iu.
Qed.

Lemma WriteElem_ok : forall files n m W B bl id wf, Bok files n m B bl -> wfnt W = Some wf ->
  exists m' B' bl', WriteElem m W B id = (m', B') /\ bhead B' = bhead B /\ Bok files n m' B' bl' /\
    content files m' bl' = content files m bl ++ [elem_item id (wfnt W) (wcol W) (wvoff W)] /\
    (exists l' a, bl' = l' ++ [a] /\ kd (bd m' a) = Elem id None) /\
    keeps m m' (bhead B :: bl) /\ from m m' (bhead B :: bl) bl'.
Proof.
  intros files n m W B bl id wf (R & H & O & L & BB) FW. set (hb := bhead B) in *.
  assert (PU : pv m hb = List.last bl hb).
  { apply (ring_prev m hb bl []). rewrite app_nil_r. exact R. }
  set (nb := {| len := 1; fnt := wfnt W; col := wcol W; voff := wvoff W; kd := Elem id None |}).
  unfold WriteElem. cbn [new pv]. fold hb. rewrite PU. fold nb.
  match goal with |- context [set_pv (set_nx ?M (nxt m) hb) hb (nxt m)] => set (m2 := M) end.
  assert (OB : body_ok files n None nb) by (split; [exists wf; exact FW|cbn [kd nb len]; auto]).
  destruct (snoc_run files n m hb bl nb m2 (ring_chain _ _ _ R) BB O OB) as (J1 & J2 & J3 & J4 & J5 & J6 & J7 & J8);
    try (intros a; reflexivity); [reflexivity|].
  pose proof (chain_close _ _ _ J1) as RC. rewrite last_app1 in RC.
  set (m' := set_pv (set_nx m2 (nxt m) hb) hb (nxt m)) in *.
  do 2 eexists. exists (bl ++ [nxt m]). split; [reflexivity|]. split; [reflexivity|]. split.
  { split; [exact RC|]. cbn [bhead blen]. split; [change (bd m' hb) with (bd m2 hb); congruence|]. split; [exact J3|]. split; [|exact J2].
    cbn [blen]. rewrite L. etransitivity; [|symmetry; etransitivity; [apply (total_ext m2 m'); reflexivity|exact J5]]. reflexivity. }
  split.
  { etransitivity; [apply (content_ext files m2 m'); reflexivity|]. rewrite J4. reflexivity. }
  split.
  { exists bl, (nxt m). split; [reflexivity|]. assert (BN : bd m' (nxt m) = nb) by (unfold m', m2; cbn [bd set_nx set_pv]; apply upd_eq).
    rewrite BN. reflexivity. }
  split; [|exact J8].
  eapply keeps_trans; [exact J7| |].
  - split; [apply le_n|]. intros a A N. pose proof (close_frame m2 hb (bl ++ [nxt m]) a N) as Q. rewrite last_app1 in Q. exact Q.
  - intros a [A|A]; [left; left; auto|apply J8; auto].
Qed.

Lemma OpenBuf_ok : forall files n m, exists m', OpenBuf m = (m', {| blen := 0; bhead := nxt m |}) /\
  Bok files n m' {| blen := 0; bhead := nxt m |} [] /\ nxt m' = S (nxt m) /\ keeps m m' [].
Proof.
  intros files n m. unfold OpenBuf. cbn [new]. eexists. split; [reflexivity|].
  split; [|split; [reflexivity|]].
  - split; [apply ring_nil; cbn [nx pv set_nx set_pv bhead]; apply upd_eq|]. split; [cbn [bd set_nx set_pv bhead]; apply upd_eq|].
    split; [intros a []|]. split; [reflexivity|]. intros a [<-|[]]. cbn [nxt set_nx set_pv bhead]. lia.
  - split; [cbn [nxt set_nx set_pv]; lia|]. intros a A _. unfold same_at. cbn [nx pv bd set_nx set_pv]. rewrite !upd_neq by lia. auto.
Qed.

Lemma Open_ok : forall files n m t bytes, files n = bytes ->
  exists m' x l, Open m n (Z.of_nat (length bytes)) = (m', x) /\ Tok files (S n) m' t x l /\
    content files m' l = map (fun c => char_item c dflt 15 0 true) bytes /\
    keeps m m' [] /\ from m m' [] (thead x :: l).
Proof.
  intros files n m t bytes FB. unfold Open. cbn [new].
  set (h := nxt m). set (N := Z.of_nat (length bytes)).
  set (pb := {| len := N; fnt := dflt; col := 15; voff := 0; kd := Piece n 0 true |}).
  cbn [nxt].
  destruct (N >? 0) eqn:EN.
  - match goal with |- context [Tok _ _ _ _ _ _] => idtac end.
    do 2 eexists. exists [S (nxt m)]. split; [reflexivity|].
    match goal with |- Tok _ _ ?M _ _ _ /\ _ => set (m' := M) end.
    assert (BP : bd m' (S (nxt m)) = pb) by (unfold m'; cbn [bd set_nx set_pv]; apply upd_eq).
    assert (BH : bd m' h = headrun MAXL 15).
    { unfold m'. cbn [bd set_nx set_pv]. rewrite upd_neq by (unfold h; lia). apply upd_eq. }
    split.
    { split.
      { cbn [thead]. split; [|split].
        - cbn [app npath]. unfold m'. cbn [nx set_nx set_pv]. fold h. rewrite (upd_neq _ _ (S (nxt m)) h h), !upd_eq by (unfold h; lia). auto.
        - cbn [app ppath]. unfold m'. cbn [pv set_nx set_pv]. fold h. rewrite !upd_eq, (upd_neq _ _ (S (nxt m)) h h), !upd_eq by (unfold h; lia). auto.
        - constructor; [intros [Q|[]]; unfold h in Q; lia|]. constructor; [intros []|constructor]. }
      split; [exact BH|]. split.
      { intros a [<-|[]]. rewrite BP. split; [exists [83; 121; 110; 116; 97; 120; 49; 48; 46; 83; 99; 110; 46; 70; 110; 116]; reflexivity|].
        cbn [kd pb len]. rewrite FB. lia. }
      split; [cbn [tlen total]; unfold lenof; rewrite BP; cbn [pb len]; lia|]. split.
      { intros a [<-|[<-|[]]]; unfold m'; cbn [nxt set_nx set_pv thead]; unfold h; lia. }
      exists [], [S (nxt m)]. auto. }
    split.
    { cbn [content flat_map]. rewrite BP, app_nil_r. unfold items. cbn [kd pb fnt col voff len]. rewrite FB. unfold sub, N.
      rewrite Nat2Z.id. cbn [Z.to_nat skipn]. rewrite firstn_all. reflexivity. }
    split.
    { split; [unfold m'; cbn [nxt set_nx set_pv]; lia|]. intros a A _. unfold same_at, m'. cbn [nx pv bd set_nx set_pv].
      rewrite !upd_neq by (unfold h; lia). auto. }
    intros a [<-|[<-|[]]]; right; unfold m'; cbn [nxt set_nx set_pv thead]; unfold h; lia.
  - assert (bytes = []) by (destruct bytes; [reflexivity|cbn in EN; discriminate]). clear FB. subst bytes.
    do 2 eexists. exists []. split; [reflexivity|].
    match goal with |- Tok _ _ ?M _ _ _ /\ _ => set (m' := M) end.
    split.
    { split; [cbn [thead]; apply ring_nil; unfold m'; cbn [nx pv set_nx set_pv]; apply upd_eq|].
      split; [cbn [thead]; unfold m'; cbn [bd set_nx set_pv]; rewrite upd_neq by (unfold h; lia); apply upd_eq|].
      split; [intros a []|]. split; [reflexivity|]. split; [|exists [], []; auto].
      intros a [<-|[]]. unfold m'. cbn [nxt set_nx set_pv thead]. unfold h. lia. }
    split; [reflexivity|]. split.
    { split; [unfold m'; cbn [nxt set_nx set_pv]; lia|]. intros a A _. unfold same_at, m'. cbn [nx pv bd set_nx set_pv].
      rewrite !upd_neq by (unfold h; lia). auto. }
    intros a [<-|[]]; right; unfold m'; cbn [nxt set_nx set_pv thead]; unfold h; lia.
Qed.

(** ** Readers *)
Definition at_pos (m : mem) (x : text) (l : list loc) (R : reader) (p : nat) : Prop :=
  (exists l1 u l2, l = l1 ++ u :: l2 /\ rrun R = u /\ rorg R = total m l1 /\ 0 <= roff R < lenof m u /\
     Z.of_nat p = total m l1 + roff R /\ reot R = false /\
     match kd (bd m u) with Piece f o _ => rfile R = f /\ rpos R = o + roff R | _ => True end) \/
  (rrun R = thead x /\ rorg R = total m l /\ 0 <= roff R /\ Z.of_nat p = total m l + roff R).

Lemma nth_sub : forall F o n k, 0 <= o -> 0 <= k < n -> o + n <= Z.of_nat (length F) ->
  nth_error (sub F o n) (Z.to_nat k) = Some (byte_at F (o + k)).
Proof.
  intros F o n k H1 H2 H3. unfold sub, byte_at.
  assert (E : nth_error (firstn (Z.to_nat n) (skipn (Z.to_nat o) F)) (Z.to_nat k) = nth_error (skipn (Z.to_nat o) F) (Z.to_nat k)).
  { clear H3 H1. assert (K : (Z.to_nat k < Z.to_nat n)%nat) by lia. revert K. generalize (Z.to_nat n) as a. generalize (Z.to_nat k) as c.
    generalize (skipn (Z.to_nat o) F) as L. intros L c. revert L. induction c as [|c IH]; intros [|y L] [|a] K; cbn; auto; try lia.
    apply IH. lia. }
  rewrite E. clear E.
  assert (G : forall (L : list Z) a c, nth_error (skipn a L) c = nth_error L (a + c)).
  { induction L as [|y L IH]; intros [|a] c; cbn; auto; try (destruct c; reflexivity). }
  rewrite G. replace (Z.to_nat o + Z.to_nat k)%nat with (Z.to_nat (o + k)) by lia.
  apply nth_error_nth'. lia.
Qed.
Lemma nth_content : forall files n base m l1 u l2 off, runs_ok files n base m (l1 ++ u :: l2) -> 0 <= off < lenof m u ->
  nth_error (content files m (l1 ++ u :: l2)) (Z.to_nat (total m l1 + off)) = nth_error (items files (bd m u)) (Z.to_nat off).
Proof.
  intros files n base m l1 u l2 off O H. apply runs_app in O as [O1 O2]. pose proof (content_len _ _ _ _ _ O1) as C.
  pose proof (items_len _ _ _ _ (O2 u ltac:(left; auto))) as [I _]. unfold lenof in H.
  rewrite content_app, nth_error_app2 by lia. cbn [content flat_map]. rewrite nth_error_app1 by lia. f_equal. lia.
Qed.
Lemma nth_shift : forall A (l : list A) (p : nat) a, nth_error l p = Some a -> In a l.
Proof. intros. eapply nth_error_In; eauto. Qed.

Lemma Read_ok : forall files n m t x l R p, Tok files n m t x l -> no_cr (content files m l) -> at_pos m x l R p ->
  Z.of_nat p + 1 < MAXL + total m l ->
  exists R' ch, Read m files R = (R', ch) /\ at_pos m x l R' (S p) /\
    (ch, rfnt R', rcol R', rvoff R', relem R', reot R', rorg R' + roff R') =
    match nth_error (content files m l) p with
    | Some i => (shown i, ifnt i, icol i, ivoff i, match iel i with Some e => Some (e, Some t) | None => None end,
                 false, Z.of_nat p + 1)
    | None => (0, None, 15, 0, None, true, Z.of_nat p + 1)
    end.
Proof.
  intros files n m t x l R p (RG & HB & O & L & _) NC AT BD. set (h := thead x) in *.
  destruct AT as [(l1 & u & l2 & EL & A1 & A2 & A3 & A4 & A5 & A6)|(A1 & A2 & A3 & A4)].
  - assert (NE : nth_error (content files m l) p = nth_error (items files (bd m u)) (Z.to_nat (roff R))).
    { rewrite EL. rewrite EL in O. rewrite <- (nth_content files n (Some t) m l1 u l2 (roff R) O A3). f_equal. lia. }
    assert (Ou : body_ok files n (Some t) (bd m u)) by (apply O; rewrite EL; apply in_app_iff; right; left; auto).
    destruct Ou as [FN K].
    assert (NX : nx m u = hd h l2).
    { rewrite EL in RG. change (l1 ++ u :: l2) with (l1 ++ [u] ++ l2) in RG. rewrite app_assoc in RG.
      rewrite <- (ring_next _ _ _ _ RG), last_app1. reflexivity. }
    unfold lenof in A3.
    (* the state after one item *)
    assert (NXT : forall eot fn cl vo el f0 p0 f1 p1,
       eot = false -> (match kd (bd m u) with Piece f o _ => f1 = f /\ p1 = o + (roff R + 1) | _ => True end) ->
       (match kd (bd m (nx m u)) with Piece f o _ => f0 = f /\ p0 = o | _ => True end) ->
       at_pos m x l (if roff R + 1 =? len (bd m u) then
           {| reot := eot; rfnt := fn; rcol := cl; rvoff := vo; relem := el; rfile := f0; rpos := p0;
              rrun := nx m u; rorg := rorg R + len (bd m u); roff := 0 |}
         else {| reot := eot; rfnt := fn; rcol := cl; rvoff := vo; relem := el; rfile := f1; rpos := p1;
                 rrun := u; rorg := rorg R; roff := roff R + 1 |}) (S p)).
    { intros eot fn cl vo el f0 p0 f1 p1 E0 E1 E2. destruct (roff R + 1 =? len (bd m u)) eqn:EQ.
      - destruct l2 as [|u2 l2]; cbn [hd] in NX.
        + right. cbn [rrun rorg roff]. fold h. rewrite A2, EL, total_app. cbn [total]. unfold lenof. conjs.
        + left. exists (l1 ++ [u]), u2, l2. cbn [rrun rorg roff reot rfile rpos]. rewrite <- app_assoc, total_app. cbn [total app].
          assert (Ou2 : body_ok files n (Some t) (bd m u2)) by (apply O; rewrite EL; apply in_app_iff; right; right; left; auto).
          pose proof (items_len _ _ _ _ Ou2) as [_ P2]. unfold lenof. rewrite NX in E2. conjs.
          destruct (kd (bd m u2)); auto. rewrite Z.add_0_r. auto.
      - left. exists l1, u, l2. cbn [rrun rorg roff reot rfile rpos]. unfold lenof. conjs. }
    unfold Read. rewrite A1.
    assert (POS : forall eot fn cl vo el f0 p0 f1 p1,
       (let R' := if roff R + 1 =? len (bd m u) then
           {| reot := eot; rfnt := fn; rcol := cl; rvoff := vo; relem := el; rfile := f0; rpos := p0;
              rrun := nx m u; rorg := rorg R + len (bd m u); roff := 0 |}
         else {| reot := eot; rfnt := fn; rcol := cl; rvoff := vo; relem := el; rfile := f1; rpos := p1;
                 rrun := u; rorg := rorg R; roff := roff R + 1 |} in
        (rfnt R', rcol R', rvoff R', relem R', reot R', rorg R' + roff R')) = (fn, cl, vo, el, eot, Z.of_nat p + 1)).
    { intros. cbv zeta. destruct (roff R + 1 =? len (bd m u)) eqn:EQ; cbn [rfnt rcol rvoff relem reot rorg roff]; f_equal; lia. }
    (* the answer of the match at the end *)
    assert (FINISH : forall (ch : Z) (el : option (nat * option nat)) (pos : Z),
      (match kd (bd m u) with Piece f o _ => rfile R = f /\ pos = o + (roff R + 1) | _ => True end) ->
      exists R', (if roff R + 1 =? len (bd m u) then
         let '(f, p) := match kd (bd m (nx m u)) with Piece f o _ => (f, o) | _ => (rfile R, pos) end in
         ({| reot := reot R; rfnt := fnt (bd m u); rcol := col (bd m u); rvoff := voff (bd m u); relem := el;
             rfile := f; rpos := p; rrun := nx m u; rorg := rorg R + len (bd m u); roff := 0 |}, ch)
       else ({| reot := reot R; rfnt := fnt (bd m u); rcol := col (bd m u); rvoff := voff (bd m u); relem := el;
                rfile := rfile R; rpos := pos; rrun := u; rorg := rorg R; roff := roff R + 1 |}, ch)) = (R', ch) /\
       at_pos m x l R' (S p) /\
       (rfnt R', rcol R', rvoff R', relem R', reot R', rorg R' + roff R') =
       (fnt (bd m u), col (bd m u), voff (bd m u), el, false, Z.of_nat p + 1)).
    { intros ch el pos HP.
      set (q := match kd (bd m (nx m u)) with Piece f o _ => (f, o) | _ => (rfile R, pos) end).
      assert (Q : match kd (bd m (nx m u)) with Piece f o _ => fst q = f /\ snd q = o | _ => True end)
        by (unfold q; destruct (kd (bd m (nx m u))); auto).
      destruct q as [f0 p0]. cbn [fst snd] in Q.
      eexists. split; [|split].
      2: apply (NXT false (fnt (bd m u)) (col (bd m u)) (voff (bd m u)) el f0 p0 (rfile R) pos); auto.
      - rewrite A5. destruct (roff R + 1 =? len (bd m u)); reflexivity.
      - apply POS. }
    destruct (kd (bd m u)) as [|f o a|i c] eqn:EK; [tauto| |].
    + destruct K as (K1 & K2 & K3 & K4). destruct A6 as [A6 A7].
      set (ch := byte_at (files (rfile R)) (rpos R)).
      assert (IT : nth_error (content files m l) p = Some (char_item ch (fnt (bd m u)) (col (bd m u)) (voff (bd m u)) a)).
      { rewrite NE. unfold items. rewrite EK, nth_error_map, nth_sub by lia. cbn [option_map]. unfold ch. rewrite A6, A7. reflexivity. }
      rewrite IT. cbn [shown ich iel ifnt icol ivoff iascii char_item].
      unfold shown. cbn [ich iascii char_item].
      assert (NCR : a = true -> ch <> 13).
      { intros ->. pose proof (NC _ (nth_error_In _ _ IT)) as Q. cbn [iascii ich char_item] in Q. auto. }
      assert (HP : rfile R = f /\ rpos R + 1 = o + (roff R + 1)) by lia.
      destruct a; cbn [andb].
      * destruct (ch =? 10) eqn:C1; cbn [andb].
        -- destruct (FINISH 13 None (rpos R + 1) HP) as (R' & E1 & E2 & E3). exists R', 13. split; [exact E1|]. split; [exact E2|].
           injection E3 as -> -> -> -> -> ->. reflexivity.
        -- specialize (NCR eq_refl). assert (C2 : ch =? 13 = false) by lia. rewrite C2. cbn [andb].
           destruct (FINISH ch None (rpos R + 1) HP) as (R' & E1 & E2 & E3). exists R', ch. split; [exact E1|]. split; [exact E2|].
           injection E3 as -> -> -> -> -> ->. reflexivity.
      * rewrite !andb_false_r.
        destruct (FINISH ch None (rpos R + 1) HP) as (R' & E1 & E2 & E3). exists R', ch. split; [exact E1|]. split; [exact E2|].
        injection E3 as -> -> -> -> -> ->. reflexivity.
    + destruct K as [K1 K2]. subst c.
      assert (IT : nth_error (content files m l) p = Some (elem_item i (fnt (bd m u)) (col (bd m u)) (voff (bd m u)))).
      { rewrite NE. unfold items. rewrite EK. replace (roff R) with 0 by lia. reflexivity. }
      rewrite IT. destruct (FINISH 28 (Some (i, Some t)) (rpos R) I) as (R' & E1 & E2 & E3). exists R', 28. split; [exact E1|]. split; [exact E2|].
      injection E3 as -> -> -> -> -> ->. reflexivity.
  - assert (NE : nth_error (content files m l) p = None).
    { apply nth_error_None. pose proof (content_len _ _ _ _ _ O). lia. }
    rewrite NE. unfold Read. rewrite A1. fold h. rewrite HB. cbn [kd headrun len fnt col voff].
    assert (EM : roff R + 1 =? MAXL = false) by lia. rewrite EM.
    do 2 eexists. split; [reflexivity|]. split.
    + right. cbn [rrun rorg roff]. conjs.
    + cbn [rfnt rcol rvoff relem reot rorg roff]. f_equal. lia.
Qed.
Lemma reads_ok : forall files n m t x l k R p, Tok files n m t x l -> no_cr (content files m l) -> at_pos m x l R p ->
  Z.of_nat p + Z.of_nat k < MAXL + total m l ->
  reads m files R k = areads t (content files m l) p k.
Proof.
  intros files n m t x l k. induction k as [|k IH]; intros R p T NC AT BD; [reflexivity|].
  destruct (Read_ok files n m t x l R p T NC AT ltac:(lia)) as (R' & ch & E1 & E2 & E3).
  cbn [reads areads]. rewrite E1, E3. f_equal. apply IH; auto. lia.
Qed.
Lemma OpenReader_ok : forall files n m t x l pos, Tok files n m t x l -> 0 <= pos ->
  exists x' R, OpenReader m x pos = Ok (x', R) /\ Tok files n m t x' l /\ thead x' = thead x /\
    at_pos m x l R (Z.to_nat (Z.min pos (total m l))).
Proof.
  intros files n m t x l pos T P. unfold OpenReader.
  assert (TL : tlen x = total m l) by apply T. rewrite TL.
  set (pos' := if pos >=? total m l then total m l else pos).
  pose proof T as (_ & _ & O & _). pose proof (total_nonneg _ _ _ _ _ O) as Z0.
  assert (P' : 0 <= pos') by (unfold pos'; destruct (pos >=? total m l); lia).
  destruct (Find_tok files n m t x l pos' T P') as (p & q & off & x' & E1 & E2 & E3 & E4 & E5 & E6 & _).
  rewrite E2. cbn [bind].
  assert (PE : Z.min pos (total m l) = total m p + off).
  { rewrite <- E3. unfold pos'. destruct (pos >=? total m l) eqn:Q; lia. }
  destruct q as [|u q]; cbn [hd].
  - destruct T as (_ & HB & _). rewrite HB. cbn [kd headrun].
    do 2 eexists. split; [reflexivity|]. split; [exact E5|]. split; [exact E6|]. right. cbn [rrun rorg roff].
    rewrite app_nil_r in E1. subst p off. conjs.
  - destruct (kd (bd m u)) as [|f o a|i c] eqn:EK;
      (do 2 eexists; split; [reflexivity|]; split; [exact E5|]; split; [exact E6|]; left; exists p, u, q;
       cbn [rrun rorg roff reot rfile rpos]; rewrite EK;
       assert (Op : runs_ok files n (Some t) m p) by (intros b B; apply O; rewrite E1; apply in_app_iff; auto);
       pose proof (total_nonneg _ _ _ _ _ Op); conjs).
Qed.
