(** C32: texts behave as sequences. *)
From Verif Require Import Base TextsModel TextsSpec TextsRing TextsLocal TextsOps TextsOps2 TextsOps3 TextsOps4 TextsInv TextsProofs.

(** Every history in which each call is legal where it is made runs to its end without trap or
    endless loop, and every answer (notification, length, buffer, reading) is the one the sequences
    give. *)
Theorem C32_texts_are_sequences : forall calls rs a, history ainit calls rs a ->
  exists s, run init calls = Ok (s, rs).
Proof.
  intros calls rs a H. destruct (run_ok _ _ _ _ H init _ Inv_init) as (s & L & E & _). exists s. exact E.
Qed.
(** So two histories that lead to the same sequences answer a further legal call alike, however
    differently their texts are cut into pieces. *)
Theorem C32_pieces_not_observable : forall h1 h2 r1 r2 a c b r3,
  history ainit h1 r1 a -> history ainit h2 r2 a -> legal a c -> astep a c = (b, r3) ->
  exists s1 s2, run init (h1 ++ [c]) = Ok (s1, r1 ++ [r3]) /\ run init (h2 ++ [c]) = Ok (s2, r2 ++ [r3]).
Proof.
  assert (X : forall a0 h r a c b r3, history a0 h r a -> legal a c -> astep a c = (b, r3) -> history a0 (h ++ [c]) (r ++ [r3]) b).
  { intros a0 h r a c b r3 H. induction H; intros LG E; cbn [app].
    - econstructor; eauto. constructor.
    - econstructor; eauto. }
  intros h1 h2 r1 r2 a c b r3 H1 H2 LG E.
  destruct (C32_texts_are_sequences _ _ _ (X _ _ _ _ _ _ _ H1 LG E)) as [s1 E1].
  destruct (C32_texts_are_sequences _ _ _ (X _ _ _ _ _ _ _ H2 LG E)) as [s2 E2].
  exists s1, s2. split; assumption.
Qed.

(** The rules a client has to respect are needed. *)
(** An empty range saved from inside a piece puts a run of length 0 in the buffer; after it is
    inserted a reader shows the characters that follow in the file the range was saved from. *)
Theorem C32_empty_save_breaks_reading :
  let calls := [OpenText 0 [97; 98; 99; 100]; NewBuf; SaveTo 0 2 2 0; OpenText 1 [120; 121]; InsertAt 1 1 0; LenOf 1; ReadN 1 0 2] in
  exists s l, run init calls = Ok (s, l ++ [AInt 2; ARead (areads 1 (map (fun c => char_item c dflt 15 0 true) [120; 99]) 0 2)]) /\
    answers ainit calls = l ++ [AInt 2; ARead (areads 1 (map (fun c => char_item c dflt 15 0 true) [120; 121]) 0 2)].
Proof. eexists. exists [ANone; ABuf (Some 0%nat); ANone; ANone; ANote (NInsert 1 1)]. split; vm_compute; reflexivity. Qed.
(** A line end CR LF of a plain file is read as one character; if something is inserted between the
    two, a reader runs past the end of the piece: what was inserted is not read. *)
Theorem C32_split_line_end_breaks_reading :
  let calls := [OpenText 0 [97; 13; 10; 98]; NewWriter 0; WriteCh 0 120; InsertAt 0 2 0; LenOf 0; ReadN 0 0 6] in
  exists s l q, run init calls = Ok (s, l ++ [AInt 5; ARead q]) /\ chars (ARead q) = [97; 13; 98; 0; 0; 0] /\
    map chars (answers ainit calls) = [[]; []; []; []; []; [97; 13; 120; 13; 98; 0]].
Proof.
  eexists. exists [ANone; ABuf (Some 0%nat); ANone; ANote (NInsert 2 3)]. eexists.
  split; [vm_compute; reflexivity|]. split; vm_compute; reflexivity.
Qed.
(** A character written to a buffer to which part of what the writer wrote before was saved is
    replaced by the character that follows that part. *)
Theorem C32_write_after_save_loses_character :
  let calls := [OpenText 0 []; NewWriter 0; WriteCh 0 97; WriteCh 0 98; WriteCh 0 99; AppendTo 0 0;
                SaveTo 0 0 1 0; WriteCh 0 120; AppendTo 0 0; ReadN 0 0 5] in
  exists s r, run init calls = Ok (s, r) /\ chars (last r ANone) = [97; 98; 99; 97; 98] /\
    chars (last (answers ainit calls) ANone) = [97; 98; 99; 97; 120].
Proof. eexists. eexists. split; [vm_compute; reflexivity|]. split; vm_compute; reflexivity. Qed.
(** Copying a buffer that is not empty to itself never ends. *)
Lemma copy_self : forall fuel m c v u w h, c ++ [v] = u :: w -> npath (nx m) (c ++ [v]) -> ~ In v c -> ~ In h (c ++ [v]) ->
  (forall x, In x (c ++ [v]) -> x < nxt m)%nat -> (h < nxt m)%nat -> copy_loop fuel m u v h = Fuel.
Proof.
  induction fuel as [|fuel IH]; intros m c v u w h EU NP NV NH LT HL; cbn [copy_loop];
    (destruct (Nat.eqb_spec u h) as [E|E]; [exfalso; apply NH; rewrite EU, E; left; reflexivity|]); [reflexivity|].
  destruct (Clone m u) as [m1 vn] eqn:EC.
  assert (HC : nx m1 = nx m /\ vn = nxt m /\ nxt m1 = S (nxt m)).
  { unfold Clone in EC. destruct (kd (bd m u)); injection EC as <- <-; repeat split. }
  destruct HC as (N1 & -> & N3).
  set (m2 := set_pv (set_nx m1 v (nxt m)) (nxt m) v).
  assert (NX : nx m2 = upd (nx m) v (nxt m)) by (unfold m2; cbn [nx set_nx set_pv]; rewrite N1; reflexivity).
  assert (NX3 : nxt m2 = S (nxt m)) by exact N3.
  assert (P2 : npath (nx m2) (c ++ v :: [nxt m])).
  { apply npath_app. rewrite NX. split.
    - apply npath_upd; [exact NP|]. rewrite removelast_snoc. exact NV.
    - cbn [npath]. split; [apply upd_eq|exact I]. }
  assert (EW : (c ++ [v]) ++ [nxt m] = u :: w ++ [nxt m]) by (rewrite EU; reflexivity).
  replace (c ++ v :: [nxt m]) with ((c ++ [v]) ++ [nxt m]) in P2 by (rewrite <- app_assoc; reflexivity).
  rewrite EW in P2. rewrite EU in LT, NH.
  assert (LT2 : forall x, In x w -> (x < nxt m)%nat) by (intros x X; apply LT; right; exact X).
  assert (EY : exists y z, w ++ [nxt m] = y :: z /\ nx m2 u = y).
  { destruct w as [|y w].
    - exists (nxt m), []. split; [reflexivity|]. apply P2.
    - exists y, (w ++ [nxt m]). split; [reflexivity|]. apply P2. }
  destruct EY as (y & z & EY & EN). rewrite EN.
  apply (IH m2 w (nxt m) y z h EY).
  - destruct w as [|y' w']; [exact I|]. apply P2.
  - intros X. specialize (LT2 _ X). exact (Nat.lt_irrefl _ LT2).
  - intros X. apply in_app_iff in X. destruct X as [X|[X|[]]]; [apply NH; right; exact X|].
    rewrite X in HL. exact (Nat.lt_irrefl _ HL).
  - rewrite NX3. intros x X. apply in_app_iff in X. destruct X as [X|[X|[]]].
    + apply Nat.lt_lt_succ_r. auto.
    + rewrite <- X. apply Nat.lt_succ_diag_r.
  - rewrite NX3. apply Nat.lt_lt_succ_r. exact HL.
Qed.
Theorem C32_copy_to_self_never_ends : forall files n m B l fuel, Bok files n m B l -> l <> [] ->
  copy_loop fuel m (nx m (bhead B)) (pv m (bhead B)) (bhead B) = Fuel.
Proof.
  intros files n m B l fuel (R & _ & _ & _ & BE) NE.
  destruct (exists_last NE) as (c & v & ->).
  assert (EP : pv m (bhead B) = v).
  { pose proof (ring_prev m (bhead B) (c ++ [v]) [] ltac:(rewrite app_nil_r; exact R)) as Q. cbn [hd] in Q. rewrite last_app1 in Q. exact Q. }
  pose proof (ring_next m (bhead B) [] (c ++ [v]) R) as EN. cbn [List.last] in EN.
  destruct (ring_part m (bhead B) [] (c ++ [v]) [] ltac:(rewrite app_nil_r; exact R)) as (NP & _ & ND).
  rewrite EP, EN. destruct (c ++ [v]) as [|u w] eqn:EU; [destruct c; discriminate EU|]. cbn [hd].
  rewrite <- EU in *.
  assert (NH : ~ In (bhead B) (c ++ [v])) by (destruct R as (_ & _ & R); apply NoDup_cons_iff in R as [R _]; exact R).
  apply (copy_self fuel m c v u w (bhead B) EU NP); auto.
  - apply NoDup_remove_2 in ND. rewrite app_nil_r in ND. exact ND.
  - intros x X. apply BE. right. exact X.
  - apply BE. left. reflexivity.
Qed.
(** A text loaded from a file in the Oberon text format has no font in its pieces: deleting from
    inside a piece is a NIL trap. *)
Lemma geb_f : forall a b, a < b -> (a >=? b) = false.
Proof. intros. rewrite Z.geb_leb. apply Z.leb_gt. lia. Qed.
Lemma geb_t : forall a b, b <= a -> (a >=? b) = true.
Proof. intros. rewrite Z.geb_leb. apply Z.leb_le. lia. Qed.
Lemma eqb_f : forall a b, a <> b -> (a =? b) = false.
Proof. intros. apply Z.eqb_neq. auto. Qed.
(** Splitting a piece. *)
Lemma split_piece : forall m off u f o a, kd (bd m u) = Piece f o a -> 0 < off < lenof m u -> (u < nxt m)%nat -> (nx m u < nxt m)%nat ->
  exists m', Split m off u = Ok (m', u, nxt m) /\ nxt m' = S (nxt m) /\ nx m' u = nxt m /\ nx m' (nxt m) = nx m u /\
    (forall x, x <> u -> x <> nxt m -> nx m' x = nx m x) /\
    bd m' u = set_len (bd m u) off /\ bd m' (nxt m) = set_kd (set_len (bd m u) (lenof m u - off)) (Piece f (o + off) a) /\
    (forall x, x <> u -> x <> nxt m -> bd m' x = bd m x) /\
    (forall x, x <> nx m u -> x <> nxt m -> pv m' x = pv m x).
Proof.
  intros m off u f o a K H LU LN. unfold Split. rewrite eqb_f, geb_f, K by lia. eexists. split; [reflexivity|].
  assert (U1 : u <> nxt m) by (intros E; rewrite <- E in LU; exact (Nat.lt_irrefl _ LU)).
  cbn [new nx pv bd nxt set_nx set_pv set_bd].
  split; [reflexivity|]. split; [apply upd_eq|]. split; [rewrite upd_neq, upd_eq by auto; reflexivity|].
  split; [intros x A B; rewrite !upd_neq by auto; reflexivity|].
  split; [rewrite upd_eq; unfold lenof; cbn [bd]; rewrite !upd_eq, !(upd_neq _ _ _ _ u) by auto; cbn [set_kd set_len len]; unfold set_len; f_equal; lia|].
  split; [rewrite upd_neq, upd_eq by auto; reflexivity|].
  split; [intros x A B; rewrite !upd_neq by auto; reflexivity|].
  intros x A B. cbn [set_bd set_pv set_nx new nx pv]. rewrite upd_neq; [apply upd_neq; auto|]. rewrite upd_eq. exact A.
Qed.
Theorem C32_delete_in_loaded_piece_traps : forall m f org n c v beg end_, 0 < beg < end_ -> end_ < n ->
  let '(m', t) := LoadPiece m f org n c v in Delete m' t beg end_ = Trap (-1).
Proof.
  intros m f org n c v beg end_ H1 H2. destruct (LoadPiece m f org n c v) as [m' t] eqn:EL.
  set (u := nxt m). set (p := S (nxt m)). set (bp := {| len := n; fnt := None; col := c; voff := v; kd := Piece f org false |}).
  assert (F : t = {| tlen := n; thead := u; tcache := u; tcorg := 0 |} /\ nx m' u = p /\ nx m' p = u /\ pv m' p = u /\
              bd m' p = bp /\ nxt m' = S p).
  { unfold LoadPiece, new in EL. cbn [nx pv bd nxt set_nx set_pv] in EL. injection EL as <- <-. cbn [nx pv bd nxt].
    assert (X1 : Nat.eqb (nxt m) (S (nxt m)) = false) by (apply Nat.eqb_neq; lia).
    assert (X2 : Nat.eqb (S (nxt m)) (nxt m) = false) by (apply Nat.eqb_neq; lia).
    cbn [set_nx set_pv nx pv bd nxt]. unfold p, u, upd. rewrite !Nat.eqb_refl, ?X1, ?X2. repeat split. }
  clear EL. destruct F as (-> & A1 & A2 & A3 & A4 & A5).
  assert (UP : u <> p) by (unfold p, u; lia). assert (PU : p = S u) by reflexivity.
  unfold Delete, Find. cbn [tlen thead tcache tcorg set_cache].
  rewrite (geb_f beg n), (geb_t beg 0) by lia. rewrite A1.
  assert (FW : forall fu k, k < n -> forward fu m' p k = Ok (p, k)).
  { intros fu k K. destruct fu; cbn [forward]; unfold lenof; rewrite A4; cbn [len bp]; rewrite geb_f by lia; reflexivity. }
  rewrite FW by lia. cbn [bind tlen thead tcache tcorg set_cache]. rewrite A3.
  destruct (split_piece m' (beg - 0) p f org false) as (m1 & E1 & B1 & B2 & B3 & B4 & B5 & B6 & B7 & B8);
    [rewrite A4; reflexivity|unfold lenof; rewrite A4; cbn [len bp]; lia|rewrite A5; apply le_n|rewrite A2, A5, PU; auto|].
  rewrite E1. cbn [bind tlen thead tcache tcorg set_cache].
  set (q := nxt m') in *. assert (EQ : q = S p) by exact A5.
  rewrite (geb_f end_ n), (geb_t end_ (beg - (beg - 0))) by lia. rewrite (B4 u), A1 by (try exact UP; rewrite EQ, PU; lia).
  assert (LP : lenof m1 p = beg) by (unfold lenof; rewrite B5; cbn [set_len len]; lia).
  assert (LQ : lenof m1 q = n - beg) by (unfold lenof; rewrite B6, A4; unfold lenof; rewrite A4; cbn [set_len set_kd len bp]; lia).
  rewrite B1, EQ. cbn [forward]. rewrite LP, (geb_t _ beg), B2 by lia. fold q. rewrite LQ, geb_f by lia.
  cbn [bind tlen thead tcache tcorg set_cache].
  assert (KQ : kd (bd m1 q) = Piece f (org + (beg - 0)) false) by (rewrite B6; reflexivity).
  destruct (split_piece m1 (end_ - (beg - (beg - 0)) - beg) q f (org + (beg - 0)) false KQ)
    as (m2 & E2 & C1 & C2 & C3 & C4 & C5 & C6 & C7 & C8);
    [rewrite LQ; lia|rewrite B1; apply le_n|rewrite B3, A2, B1, EQ, PU; auto|].
  rewrite E2. cbn [bind]. set (r := nxt m1) in *.
  assert (ER : r = S q) by exact B1.
  destruct (OpenBuf_ok (fun _ => []) 0%nat m2) as (m3 & E3 & _ & D1 & D2 & D3). rewrite E3. cbn [bhead].
  set (h := nxt m2) in *. assert (EH : h = S r) by exact C1.
  assert (SM : forall x, (x < h)%nat -> nx m3 x = nx m2 x /\ bd m3 x = bd m2 x).
  { intros x X. destruct (D3 x X) as (Q1 & _ & Q3); [intros []|]. auto. }
  rewrite <- EQ.
  assert (QH : (q < h)%nat) by (rewrite EH, ER; auto).
  assert (BP : kd (bd m3 p) = Piece f org false /\ fnt (bd m3 p) = None).
  { destruct (SM p) as [_ ->]; [rewrite EH, ER, EQ; auto|]. rewrite (C7 p) by (rewrite ?ER, ?EQ; lia). rewrite B5, A4. split; reflexivity. }
  assert (BR : exists o, kd (bd m3 r) = Piece f o false).
  { destruct (SM r) as [_ ->]; [rewrite EH; auto|]. rewrite C6. eexists. reflexivity. }
  assert (BQ : exists o, kd (bd m3 q) = Piece f o false).
  { destruct (SM q QH) as [_ ->]. rewrite C5. cbn [set_len kd]. rewrite KQ. eexists. reflexivity. }
  destruct BP as [BP BF]. destruct BR as [o1 BR]. destruct BQ as [o2 BQ].
  assert (SP : exists m4, Splice m3 h q q None = Ok m4 /\ bd m4 = bd m3).
  { unfold Splice. destruct (SM q QH) as [-> _]. rewrite C2. rewrite (proj2 (Nat.eqb_neq q r)) by (rewrite ER; auto).
    cbn [negb rebase bd set_nx set_pv nx]. rewrite BQ. cbn [nx set_nx set_pv]. rewrite upd_eq, Nat.eqb_refl. eexists. split; reflexivity. }
  destruct SP as (m4 & E4 & E5). rewrite E4. cbn [bind]. unfold Merge. rewrite E5, BP, BR, BF. reflexivity.
Qed.

(** A history with two texts cut into several pieces, elements, changed looks, a saved range, a
    recalled buffer and readings: it meets the rules, so the theorem applies to it. *)
Definition sample : list call :=
  [OpenText 0 [97; 98; 10; 100; 101]; NewWriter 3; SetLooks 3 [70] 1 2; WriteCh 3 120; WriteEl 3 9; WriteCh 3 121; BufLen 0;
   InsertAt 0 2 0; LenOf 0; SaveTo 0 1 7 0; OpenText 1 []; AppendTo 1 0; DeleteFrom 1 1 3; RecallBuf; CopyBuf 1 0; InsertAt 1 0 1;
   Change 0 1 6 {| lfnt := Some [71]; lcol := 4; lvoff := 5; s0 := true; s1 := true; s2 := false |};
   ReadN 0 0 9; ReadN 1 2 7; ReadN 1 100 1].
Fixpoint legals (a : astate) (l : list call) : Prop :=
  match l with [] => True | c :: l => legal a c /\ legals (fst (astep a c)) l end.
Lemma legals_history : forall l a, legals a l -> exists a', history a l (answers a l) a'.
Proof.
  induction l as [|c l IH]; intros a H; [exists a; constructor|]. destruct H as [H1 H2]. destruct (IH _ H2) as [a' HH].
  exists a'. cbn [answers]. destruct (astep a c) as [b r] eqn:E. econstructor; eauto.
Qed.
Example C32_sample : legals ainit sample /\
  chars (nth 17 (answers ainit sample) ANone) = [97; 98; 120; 28; 121; 13; 100; 101; 0] /\
  chars (nth 18 (answers ainit sample) ANone) = [98; 121; 13; 100; 0; 0; 0].
Proof.
  split; [|split; vm_compute; reflexivity].
  unfold sample. cbn [legals]. repeat split; try exact I; try (vm_compute; discriminate); try (vm_compute; lia);
  try (eexists; split; vm_compute; reflexivity); try (left; lia).
  all: match goal with |- no_cr ?l => let r := eval vm_compute in l in
         let E := fresh in assert (E : l = r) by (vm_compute; reflexivity); rewrite E; intros i C; cbn [In] in C; repeat (destruct C as [C|C]; [subst i; vm_compute; congruence|]); destruct C end.
Qed.
Example C32_sample_runs : exists s, run init sample = Ok (s, answers ainit sample).
Proof. destruct (legals_history sample ainit (proj1 C32_sample)) as [a H]. exact (C32_texts_are_sequences _ _ _ H). Qed.
Print Assumptions C32_texts_are_sequences.
Print Assumptions C32_pieces_not_observable.
Print Assumptions C32_empty_save_breaks_reading.
Print Assumptions C32_split_line_end_breaks_reading.
Print Assumptions C32_write_after_save_loses_character.
Print Assumptions C32_copy_to_self_never_ends.
Print Assumptions C32_delete_in_loaded_piece_traps.
