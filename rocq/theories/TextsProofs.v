(** The runs of the module refine plain sequences: the steps (for C32). *)
From Verif Require Import Base TextsModel TextsSpec TextsRing TextsLocal TextsOps TextsOps2 TextsOps3 TextsOps4 TextsInv.

Lemma grows_new : forall files n bytes, grows files (upd files n bytes) n (S n).
Proof. intros. split; [lia|]. intros f F. exists []. rewrite upd_neq by lia. symmetry. apply app_nil_r. Qed.

(** A new buffer. *)
Lemma newb_core : forall s a L fl' nf' wr' aw' m', Inv s a L -> grows (fl s) fl' (nf s) nf' ->
  let B := {| blen := 0; bhead := nxt (mm s) |} in
  Bok fl' nf' m' B [] -> nxt m' = S (nxt (mm s)) -> keeps (mm s) m' [] ->
  let s' := {| mm := m'; fl := fl'; nf := nf'; tx := tx s; bf := upd (bf s) (nb s) (Some B); nb := S (nb s); wr := wr'; del := del s |} in
  let a' := {| atx := atx a; abf := upd (abf a) (anb a) (Some {| aitems := []; mixed := false |}); anb := S (anb a); awr := aw'; adel := adel a |} in
  let L' := updo L (OB (nb s)) [] in
  (forall o, ok s' a' L' o) /\ (forall o1 o2 c, In c (cells s' L' o1) -> In c (cells s' L' o2) -> o1 = o2) /\
  (forall o c, o <> OB (nb s) -> In c (cells s L o) -> same_at (mm s) m' c).
Proof.
  intros s a L fl' nf' wr' aw' m' I G B BO NX [K1 K2] s' a' L'.
  assert (EL : L' (OB (nb s)) = []) by apply updo_eq.
  assert (EX : bf s' (nb s) = Some B) by apply upd_eq.
  destruct (transfer s a L s' a' L' [OB (nb s)] I) as (P1 & P2 & P3).
  - intros o N. assert (NE : o <> OB (nb s)) by (intros ->; apply N; left; auto). split; [|unfold L'; rewrite updo_neq; auto].
    destruct o as [t'|b']; [split; reflexivity|]. assert (b' <> nb s) by congruence.
    split; unfold s', a'; cbn [bf abf]; [|rewrite (i_nb _ _ _ I)]; apply upd_neq; auto.
  - exact K1.
  - intros c C N. apply K2; auto.
  - exact G.
  - intros o [<-|[]]. cbn [ok]. rewrite EX, EL. split; [exact BO|]. exists false. unfold a'. cbn [abf].
    rewrite (i_nb _ _ _ I), upd_eq. reflexivity.
  - intros o c [<-|[]] C. rewrite (cells_b _ _ _ _ EX), EL in C. destruct C as [C|[]]. right. rewrite <- C. apply le_n.
  - intros o1 o2 c [<-|[]] [<-|[]] _ _. reflexivity.
  - split; [exact P1|]. split; [exact P2|]. intros o c O C. eapply P3; [|exact C]. intros [Q|[]]. congruence.
Qed.
Lemma wok_new : forall s a L W w fl' nf' wr' aw' m', Inv s a L -> wok s a L W w -> (nf s <= nf')%nat ->
  fl' (wfile W) = fl s (wfile W) -> aw' w = awr a w ->
  (forall o c, o <> OB (nb s) -> In c (cells s L o) -> same_at (mm s) m' c) ->
  forall B,
  wok {| mm := m'; fl := fl'; nf := nf'; tx := tx s; bf := upd (bf s) (nb s) (Some B); nb := S (nb s); wr := wr'; del := del s |}
      {| atx := atx a; abf := upd (abf a) (anb a) (Some {| aitems := []; mixed := false |}); anb := S (anb a); awr := aw'; adel := adel a |}
      (updo L (OB (nb s)) []) W w.
Proof.
  intros s a L W w fl' nf' wr' aw' m' I K N F A P B.
  assert (NB : wbuf W <> nb s).
  { intros E. destruct K as (_ & _ & _ & K & _). apply K. apply I. rewrite E. apply le_n. }
  apply (wok_keep s a L _ _ _ W w I K); auto.
  - cbn [bf]. apply upd_neq; auto.
  - unfold mixed_of. cbn [abf]. rewrite (i_nb _ _ _ I), upd_neq; auto.
  - rewrite updo_neq; [reflexivity|congruence].
  - intros c C. eapply P; [|exact C]. congruence.
Qed.
Lemma fresh_newb : forall s a L B, Inv s a L -> forall b, (S (nb s) <= b)%nat -> upd (bf s) (nb s) (Some B) b = None.
Proof. intros s a L B I b H. rewrite upd_neq by lia. apply I. lia. Qed.

Definition good (s : state) (a : astate) (c : call) : Prop :=
  exists s' L', step s c = Ok (s', snd (astep a c)) /\ Inv s' (fst (astep a c)) L'.

Lemma s_newbuf : forall s a L, Inv s a L -> good s a NewBuf.
Proof.
  intros s a L I. unfold good. destruct (OpenBuf_ok (fl s) (nf s) (mm s)) as (m' & E & BO & NX & K).
  cbn [step astep fst snd]. rewrite E. eexists _, (updo L (OB (nb s)) []). split; [rewrite (i_nb _ _ _ I); reflexivity|].
  destruct (newb_core s a L (fl s) (nf s) (wr s) (awr a) m' I (grows_refl _ _) BO NX K) as (P1 & P2 & P3).
  constructor; [exact P1|exact P2| | | | |].
  - cbn [aw_nb anb nb]. rewrite (i_nb _ _ _ I). reflexivity.
  - cbn [nb bf]. eapply fresh_newb; eauto.
  - apply I.
  - intros w. pose proof (i_w _ _ _ I w) as W. cbn [wr]. destruct (wr s w) as [W0|] eqn:EW; [|exact W].
    eapply wok_new; eauto.
  - apply I.
Qed.
Lemma s_newwriter : forall s a L w, Inv s a L -> good s a (NewWriter w).
Proof.
  intros s a L w I. unfold good. destruct (OpenBuf_ok (upd (fl s) (nf s) []) (S (nf s)) (mm s)) as (m' & E & BO & NX & K).
  cbn [step astep fst snd]. rewrite E. eexists _, (updo L (OB (nb s)) []). split; [rewrite (i_nb _ _ _ I); reflexivity|].
  set (W1 := {| wbuf := nb s; wfnt := dflt; wcol := 15; wvoff := 0; wfile := nf s |}).
  set (A1 := {| awbuf := anb a; awfnt := dflt; awcol := 15; awvoff := 0 |}).
  destruct (newb_core s a L (upd (fl s) (nf s) []) (S (nf s)) (upd (wr s) w (Some W1)) (upd (awr a) w (Some A1)) m' I
     (grows_new _ _ _) BO NX K) as (P1 & P2 & P3).
  assert (WF : forall w' W', wr s w' = Some W' -> (wfile W' < nf s)%nat).
  { intros w' W' EW. pose proof (i_w _ _ _ I w') as Q. rewrite EW in Q. apply Q. }
  constructor; [exact P1|exact P2| | | | |].
  - cbn [aw_nb anb nb]. rewrite (i_nb _ _ _ I). reflexivity.
  - cbn [nb bf]. eapply fresh_newb; eauto.
  - apply I.
  - intros w'. cbn [wr awr]. destruct (Nat.eq_dec w' w) as [->|NW].
    + rewrite upd_eq. split; [eexists; reflexivity|]. split; [cbn [awr]; rewrite upd_eq; unfold A1; rewrite (i_nb _ _ _ I); reflexivity|].
      split; [apply le_n|]. split; [cbn [bf W1 wbuf]; rewrite upd_eq; discriminate|]. intros _. cbn [W1 wbuf]. rewrite updo_eq. apply tip_nil.
    + rewrite upd_neq by auto. pose proof (i_w _ _ _ I w') as W. destruct (wr s w') as [W0|] eqn:EW; [|rewrite upd_neq; auto].
      apply (wok_new s a L W0 w' _ _ _ _ m' I W); [lia| | |exact P3].
      * rewrite upd_neq; [reflexivity|]. pose proof (WF _ _ EW). lia.
      * apply upd_neq; auto.
  - cbn [wr]. intros w1 w2 W2 W3 Q1 Q2 EQ.
    destruct (Nat.eq_dec w1 w) as [->|N1]; destruct (Nat.eq_dec w2 w) as [->|N2]; auto.
    + rewrite upd_eq in Q1. rewrite upd_neq in Q2 by auto. apply WF in Q2. injection Q1 as <-. cbn [W1 wfile] in EQ. lia.
    + rewrite upd_eq in Q2. rewrite upd_neq in Q1 by auto. apply WF in Q1. injection Q2 as <-. cbn [W1 wfile] in EQ. lia.
    + rewrite upd_neq in Q1, Q2 by auto. eapply i_wd; eauto.
Qed.
Lemma s_setlooks : forall s a L w f k v, Inv s a L -> legal a (SetLooks w f k v) -> good s a (SetLooks w f k v).
Proof.
  intros s a L w f k v I H. cbn [legal] in H. unfold good. cbn [step astep].
  pose proof (i_w _ _ _ I w) as W. destruct (wr s w) as [W0|] eqn:EW; [|congruence].
  destruct W as (W1 & W2 & W3 & W4 & W5). rewrite W2. cbn [fst snd some bind awbuf].
  eexists _, L. split; [reflexivity|].
  constructor; try apply I.
  - intros w'. cbn [wr awr]. destruct (Nat.eq_dec w' w) as [->|NW].
    + rewrite upd_eq. split; [exists f; reflexivity|]. split; [cbn [awr]; rewrite upd_eq; reflexivity|].
      cbn [wfile wbuf]. split; [exact W3|]. split; [exact W4|exact W5].
    + rewrite upd_neq by auto. pose proof (i_w _ _ _ I w') as W. destruct (wr s w') as [W'|] eqn:EW'; [|rewrite upd_neq; auto].
      destruct W as (V1 & V2 & V3 & V4 & V5). split; [exact V1|]. split; [cbn [awr]; rewrite upd_neq by auto; exact V2|].
      split; [exact V3|]. split; [exact V4|exact V5].
  - cbn [wr]. intros w1 w2 W6 W7 Q1 Q2 EQ.
    destruct (Nat.eq_dec w1 w) as [->|N1]; destruct (Nat.eq_dec w2 w) as [->|N2]; auto.
    + rewrite upd_eq in Q1. rewrite upd_neq in Q2 by auto. injection Q1 as <-. eapply i_wd; eauto.
    + rewrite upd_eq in Q2. rewrite upd_neq in Q1 by auto. injection Q2 as <-. eapply i_wd; eauto.
    + rewrite upd_neq in Q1, Q2 by auto. eapply i_wd; eauto.
Qed.
Lemma s_recall : forall s a L, Inv s a L -> good s a RecallBuf.
Proof.
  intros s a L I. unfold good. cbn [step astep fst snd]. eexists _, L. split; [rewrite (i_del _ _ _ I); reflexivity|].
  constructor; try apply I. reflexivity.
Qed.
Lemma s_open : forall s a L t bytes, Inv s a L -> good s a (OpenText t bytes).
Proof.
  intros s a L t bytes I. unfold good. set (fl' := upd (fl s) (nf s) bytes).
  destruct (Open_ok fl' (nf s) (mm s) t bytes (upd_eq _ _ _ _)) as (m' & x & l & E & T & C & [K1 K2] & F).
  cbn [step astep fst snd]. rewrite E. eexists _, (updo L (OT t) l). split; [reflexivity|].
  fold fl'. rewrite <- C.
  match goal with |- Inv ?s0 ?a0 _ => set (s' := s0); set (a' := a0) end. set (L' := updo L (OT t) l).
  assert (EL : L' (OT t) = l) by apply updo_eq.
  assert (EX : tx s' t = Some x) by apply upd_eq.
  destruct (transfer s a L s' a' L' [OT t] I) as (P1 & P2 & P3).
  - intros o N. assert (NE : o <> OT t) by (intros ->; apply N; left; auto). split; [|unfold L'; rewrite updo_neq; auto].
    destruct o as [t'|b']; [|split; reflexivity]. split; apply upd_neq; congruence.
  - exact K1.
  - intros c Q N. apply K2; auto.
  - apply grows_new.
  - intros o [<-|[]]. cbn [ok]. rewrite EX, EL. split; [exact T|]. apply upd_eq.
  - intros o c [<-|[]] Q. rewrite (cells_t _ _ _ _ EX), EL in Q. destruct (F c Q) as [[]|R]. right. apply R.
  - intros o1 o2 c [<-|[]] [<-|[]] _ _. reflexivity.
  - constructor; auto; try apply I.
    intros w. pose proof (i_w _ _ _ I w) as W. change (wr s' w) with (wr s w). destruct (wr s w) as [W0|] eqn:EW; [|exact W].
    assert (WF : (wfile W0 < nf s)%nat) by apply W.
    apply (wok_keep s a L s' a' L' W0 w I W); [reflexivity|cbn [s' nf]; lia|reflexivity|reflexivity| | |].
    + unfold L'. rewrite updo_neq; [reflexivity|discriminate].
    + cbn [s' fl]. apply upd_neq. lia.
    + intros c Q. eapply P3; [|exact Q]. intros [R|[]]. discriminate R.
Qed.
Lemma disj_sym : forall a b, disj a b -> disj b a.
Proof. intros a b D c C1 C2. exact (D c C2 C1). Qed.
Lemma disj_cells : forall s a L t x b B, Inv s a L -> tx s t = Some x -> bf s b = Some B ->
  disj (bhead B :: L (OB b)) (thead x :: L (OT t)).
Proof.
  intros s a L t x b B I E1 E2. rewrite <- (cells_t s L t x E1), <- (cells_b s L b B E2). eapply disj_tb; eauto. discriminate.
Qed.
(** The emptied buffer shares nothing with the text. *)
Lemma disj_empty : forall files n m t x l B, Tok files n m t x l -> Bok files n m B [] -> bhead B <> thead x ->
  disj (thead x :: l) (bhead B :: []).
Proof.
  intros files n m t x l B (_ & _ & R & _) (_ & H & _) N c [C|C] [Q|[]].
  - congruence.
  - subst c. exact (no_head _ _ _ _ _ _ _ _ R H C).
Qed.
Lemma from_left : forall m m' S S' l, from m m' S l -> (forall c, In c S -> In c S') -> from m m' S' l.
Proof. intros m m' S S' l F K c C. destruct (F c C); auto. Qed.

Lemma s_insert : forall s a L t pos b, Inv s a L -> legal a (InsertAt t pos b) -> good s a (InsertAt t pos b).
Proof.
  intros s a L t pos b I (H1 & H2 & H3). unfold good.
  destruct (live_tx _ _ _ _ I H1) as [x EX]. destruct (live_bf _ _ _ _ I H2) as [B EB].
  destruct (text_of_ok _ _ _ _ _ I EX) as (T & TC & TL). destruct (buf_of_ok _ _ _ _ _ I EB) as (BO & BC & BL).
  pose proof (disj_cells _ _ _ _ _ _ _ I EX EB) as D.
  destruct (Insert_ok _ _ _ _ _ _ _ _ pos T BO D H3) as (m' & x' & l' & E & T' & TH & BO' & C & K & F).
  cbn [step astep fst snd]. rewrite EX, EB. cbn [some bind]. rewrite E. cbn [bind].
  assert (BLN : blen B = total (mm s) (L (OB b))) by apply BO.
  rewrite (clip_min _ pos _ H3 TL), BC, TC.
  assert (PN : Z.of_nat (Z.to_nat (Z.min pos (total (mm s) (L (OT t))))) = Z.min pos (total (mm s) (L (OT t)))) by lia.
  rewrite PN, <- BC, BL, <- BLN. eexists _, _. split; [reflexivity|].
  unfold take, drop. rewrite BC, <- C.
  change (@nil item) with (content (fl s) m' []).
  eapply (Inv_tb s a L t x b B m' x' l' _ [] false); eauto.
  - eapply disj_empty; eauto. cbn [bhead]. rewrite TH. intros Q. apply (D (bhead B)); [left; auto|left; auto].
  - intros c [].
Qed.
Lemma s_append : forall s a L t b, Inv s a L -> legal a (AppendTo t b) -> good s a (AppendTo t b).
Proof.
  intros s a L t b I (H1 & H2). unfold good.
  destruct (live_tx _ _ _ _ I H1) as [x EX]. destruct (live_bf _ _ _ _ I H2) as [B EB].
  destruct (text_of_ok _ _ _ _ _ I EX) as (T & TC & TL). destruct (buf_of_ok _ _ _ _ _ I EB) as (BO & BC & BL).
  pose proof (disj_cells _ _ _ _ _ _ _ I EX EB) as D.
  destruct (Append_ok _ _ _ _ _ _ _ _ T BO D) as (m' & x' & l' & E & T' & TH & BO' & C & K & F).
  cbn [step astep fst snd]. rewrite EX, EB. cbn [some bind]. rewrite E. cbn [bind].
  assert (BLN : blen B = total (mm s) (L (OB b))) by apply BO.
  assert (TLN : tlen x = total (mm s) (L (OT t))) by apply T.
  rewrite TL, BL, <- BLN, <- TLN. eexists _, _. split; [reflexivity|].
  rewrite BC, TC, <- C.
  change (@nil item) with (content (fl s) m' []).
  eapply (Inv_tb s a L t x b B m' x' l' _ [] false); eauto.
  - eapply disj_empty; eauto. cbn [bhead]. rewrite TH. intros Q. apply (D (bhead B)); [left; auto|left; auto].
  - intros c [].
Qed.
Lemma s_save : forall s a L t beg e b, Inv s a L -> legal a (SaveTo t beg e b) -> good s a (SaveTo t beg e b).
Proof.
  intros s a L t beg e b I (H1 & H2 & H3 & H4). unfold good.
  destruct (live_tx _ _ _ _ I H1) as [x EX]. destruct (live_bf _ _ _ _ I H2) as [B EB].
  destruct (text_of_ok _ _ _ _ _ I EX) as (T & TC & TL). destruct (buf_of_ok _ _ _ _ _ I EB) as (BO & BC & BL).
  pose proof (disj_cells _ _ _ _ _ _ _ I EX EB) as D. rewrite TL in H4.
  destruct (Save_ok _ _ _ _ _ _ _ _ beg e T BO D H3 H4) as (m' & x' & B' & bl' & E & T' & TH & BH & BO' & CT & C & K & F).
  cbn [step astep fst snd]. rewrite EX, EB. cbn [some bind]. rewrite E. cbn [bind].
  assert (0 <= e) by (pose proof (total_nonneg _ _ _ _ _ (proj1 (proj2 (proj2 T)))); lia).
  rewrite (clip_min _ beg _ H3 TL), (clip_min _ e _ ltac:(assumption) TL), BC, TC. unfold between, take, drop.
  eexists _, _. split; [reflexivity|]. rewrite <- C.
  assert (INC : forall c, In c (bhead B :: L (OB b)) -> In c ((thead x :: L (OT t)) ++ bhead B :: L (OB b))).
  { intros c Q. apply in_app_iff. right. exact Q. }
  eapply Inv_aext; [eapply (Inv_tb s a L t x b B m' x' (L (OT t)) B' bl' true); eauto| | | | |]; try reflexivity.
  - apply disj_sym. intros c Q1 Q2. rewrite TH in Q2. rewrite BH in Q1. destruct Q1 as [Q1|Q1].
    + apply (D c); [left; auto|exact Q2].
    + destruct (F c Q1) as [R|R]; [exact (D c R Q2)|].
      rewrite <- (cells_t _ _ _ _ EX) in Q2. pose proof (cells_lt _ _ _ _ _ I Q2). lia.
  - eapply keeps_mono; eauto.
  - apply from_refl. intros c Q. apply in_app_iff. left. right. exact Q.
  - eapply from_left; eauto.
  - intros t'. cbn [aw_b aw_tx atx]. destruct (Nat.eq_dec t' t) as [->|N]; [|rewrite upd_neq; auto].
    rewrite upd_eq, CT. pose proof (i_ok _ _ _ I (OT t)) as Q. cbn [ok] in Q. rewrite EX in Q. apply Q.
Qed.
Lemma s_delete : forall s a L t beg e, Inv s a L -> legal a (DeleteFrom t beg e) -> good s a (DeleteFrom t beg e).
Proof.
  intros s a L t beg e I (H1 & H2). unfold good.
  destruct (live_tx _ _ _ _ I H1) as [x EX].
  destruct (text_of_ok _ _ _ _ _ I EX) as (T & TC & TL).
  destruct (Delete_ok _ _ _ _ _ _ beg e T H2) as (m' & x' & l' & D & dl & E & T' & TH & BO & DJ & C1 & C2 & [K1 K2] & F).
  cbn [step astep]. rewrite EX. cbn [some bind]. rewrite E. cbn [bind].
  rewrite (clip_min _ beg _ ltac:(lia) TL), (clip_min _ e _ ltac:(lia) TL), TC. unfold between, take, drop.
  rewrite <- C1, <- C2. cbn [fst snd].
  assert (TN : 0 <= total (mm s) (L (OT t))) by (eapply total_nonneg; apply T).
  assert (PB : Z.of_nat (Z.to_nat (Z.min beg (total (mm s) (L (OT t))))) = Z.min beg (total (mm s) (L (OT t)))) by lia.
  assert (PE : Z.of_nat (Z.to_nat (Z.min e (total (mm s) (L (OT t))))) = Z.min e (total (mm s) (L (OT t)))) by lia.
  rewrite PB, PE. eexists _, (updo (updo L (OT t) l') (OB (nb s)) dl). split; [reflexivity|].
  match goal with |- Inv ?s0 ?a0 _ => set (s' := s0); set (a' := a0) end.
  set (L' := updo (updo L (OT t) l') (OB (nb s)) dl).
  assert (EL : L' (OT t) = l') by (unfold L'; rewrite updo_neq by discriminate; apply updo_eq).
  assert (ELB : L' (OB (nb s)) = dl) by apply updo_eq.
  assert (EX' : tx s' t = Some x') by apply upd_eq.
  assert (EXB : bf s' (nb s) = Some D) by apply upd_eq.
  assert (FX : forall c, In c (l' ++ bhead D :: dl) -> In c (cells s L (OT t)) \/ (nxt (mm s) <= c)%nat).
  { intros c C. rewrite (cells_t _ _ _ _ EX). destruct (F c C) as [Q|Q]; [left; exact Q|right; apply Q]. }
  destruct (transfer s a L s' a' L' [OT t; OB (nb s)] I) as (P1 & P2 & P3).
  - intros o N. assert (NE : o <> OT t) by (intros ->; apply N; left; auto).
    assert (NE2 : o <> OB (nb s)) by (intros ->; apply N; right; left; auto).
    split; [|unfold L'; rewrite !updo_neq; auto].
    destruct o as [t'|b']; split; try (apply upd_neq; congruence).
    unfold a', aw_nb. cbn [abf aw_tx anb]. rewrite (i_nb _ _ _ I). apply upd_neq; congruence.
  - exact K1.
  - intros c C N. apply K2; [exact C|]. specialize (N (OT t) (or_introl eq_refl)). rewrite (cells_t _ _ _ _ EX) in N. exact N.
  - apply grows_refl.
  - intros o [<-|[<-|[]]]; cbn [ok].
    + rewrite EX', EL. split; [exact T'|]. apply upd_eq.
    + rewrite EXB, ELB. split; [exact BO|]. exists false. unfold a', aw_nb. cbn [abf aw_tx anb]. rewrite (i_nb _ _ _ I). apply upd_eq.
  - intros o c [<-|[<-|[]]] C.
    + rewrite (cells_t _ _ _ _ EX'), EL in C. destruct C as [C|C].
      * left. exists (OT t). split; [left; auto|]. rewrite (cells_t _ _ _ _ EX). left. congruence.
      * destruct (FX c ltac:(apply in_app_iff; left; exact C)) as [Q|Q]; [left|right; exact Q]. exists (OT t). split; [left; auto|exact Q].
    + rewrite (cells_b _ _ _ _ EXB), ELB in C.
      destruct (FX c ltac:(apply in_app_iff; right; exact C)) as [Q|Q]; [left|right; exact Q]. exists (OT t). split; [left; auto|exact Q].
  - intros o1 o2 c [<-|[<-|[]]] [<-|[<-|[]]] Q1 Q2; auto; exfalso;
    rewrite ?(cells_t _ _ _ _ EX'), ?EL, ?(cells_b _ _ _ _ EXB), ?ELB, ?TH in *; eapply DJ; eauto.
  - constructor; [exact P1|exact P2| | | | |].
    + unfold a', s', aw_nb. cbn [anb nb aw_tx]. rewrite (i_nb _ _ _ I). reflexivity.
    + unfold s'. cbn [bf nb]. eapply fresh_newb; eauto.
    + unfold a', s', aw_nb. cbn [adel del]. rewrite (i_nb _ _ _ I). reflexivity.
    + intros w. pose proof (i_w _ _ _ I w) as W. change (wr s' w) with (wr s w). destruct (wr s w) as [W0|] eqn:EW; [|exact W].
      assert (NB : wbuf W0 <> nb s).
      { intros Q. destruct W as (_ & _ & _ & W & _). apply W. apply I. rewrite Q. apply le_n. }
      apply (wok_keep s a L s' a' L' W0 w I W); [reflexivity|apply le_n| | | |reflexivity|].
      * unfold s'. cbn [bf]. apply upd_neq; auto.
      * unfold mixed_of, a', aw_nb. cbn [abf aw_tx anb]. rewrite (i_nb _ _ _ I), upd_neq; auto.
      * unfold L'. rewrite !updo_neq; [reflexivity|discriminate|congruence].
      * intros c Q. eapply P3; [|exact Q]. intros [R|[R|[]]]; congruence.
    + apply I.
Qed.
Lemma s_change : forall s a L t beg e k, Inv s a L -> legal a (Change t beg e k) -> good s a (Change t beg e k).
Proof.
  intros s a L t beg e k I (H1 & H2). unfold good.
  destruct (live_tx _ _ _ _ I H1) as [x EX].
  destruct (text_of_ok _ _ _ _ _ I EX) as (T & TC & TL).
  destruct (ChangeLooks_ok _ _ _ _ _ _ beg e k T H2) as (m' & x' & l' & E & T' & TH & C & K & F).
  cbn [step astep]. rewrite EX. cbn [some bind]. rewrite E. cbn [bind].
  rewrite (clip_min _ beg _ ltac:(lia) TL), (clip_min _ e _ ltac:(lia) TL), TC. unfold between, take, drop.
  rewrite <- C. cbn [fst snd].
  assert (TN : 0 <= total (mm s) (L (OT t))) by (eapply total_nonneg; apply T).
  assert (PB : Z.of_nat (Z.to_nat (Z.min beg (total (mm s) (L (OT t))))) = Z.min beg (total (mm s) (L (OT t)))) by lia.
  assert (PE : Z.of_nat (Z.to_nat (Z.min e (total (mm s) (L (OT t))))) = Z.min e (total (mm s) (L (OT t)))) by lia.
  rewrite PB, PE. eexists _, _. split; [reflexivity|]. eapply Inv_tx; eauto.
Qed.
Lemma s_readn : forall s a L t pos n, Inv s a L -> legal a (ReadN t pos n) -> good s a (ReadN t pos n).
Proof.
  intros s a L t pos n I (H1 & H2 & H3 & H4). unfold good.
  destruct (live_tx _ _ _ _ I H1) as [x EX].
  destruct (text_of_ok _ _ _ _ _ I EX) as (T & TC & TL).
  destruct (OpenReader_ok _ _ _ _ _ _ pos T H2) as (x' & R & E & T' & TH & A).
  cbn [step astep fst snd]. rewrite EX. cbn [some bind]. rewrite E. cbn [bind].
  rewrite (clip_min _ pos _ H2 TL). rewrite TC in H3 |- *.
  assert (TN : 0 <= total (mm s) (L (OT t))) by (eapply total_nonneg; apply T).
  rewrite (reads_ok _ _ _ _ _ _ n R _ T H3 A) by lia.
  eexists _, _. split; [reflexivity|].
  eapply Inv_aext; [eapply (Inv_tx s a L t x (mm s) x' (L (OT t))); eauto| | | | |]; try reflexivity.
  - apply keeps_refl.
  - apply from_refl. intros c Q. right. exact Q.
  - intros t'. cbn [aw_tx atx]. destruct (Nat.eq_dec t' t) as [->|N]; [|rewrite upd_neq; auto].
    rewrite upd_eq. pose proof (i_ok _ _ _ I (OT t)) as Q. cbn [ok] in Q. rewrite EX in Q. apply Q.
Qed.
Lemma s_len : forall s a L t, Inv s a L -> legal a (LenOf t) -> good s a (LenOf t).
Proof.
  intros s a L t I H. unfold good. destruct (live_tx _ _ _ _ I H) as [x EX].
  destruct (text_of_ok _ _ _ _ _ I EX) as (T & TC & TL).
  cbn [step astep fst snd]. rewrite EX. cbn [some bind]. exists s, L. split; [|exact I]. rewrite TL.
  destruct T as (_ & _ & _ & -> & _). reflexivity.
Qed.
Lemma s_blen : forall s a L t, Inv s a L -> legal a (BufLen t) -> good s a (BufLen t).
Proof.
  intros s a L t I H. unfold good. destruct (live_bf _ _ _ _ I H) as [x EX].
  destruct (buf_of_ok _ _ _ _ _ I EX) as (T & TC & TL).
  cbn [step astep fst snd]. rewrite EX. cbn [some bind]. exists s, L. split; [|exact I]. rewrite TL.
  destruct T as (_ & _ & _ & -> & _). reflexivity.
Qed.
Lemma s_copy : forall s a L sb db, Inv s a L -> legal a (CopyBuf sb db) -> good s a (CopyBuf sb db).
Proof.
  intros s a L sb db I (H1 & H2 & H3). unfold good.
  destruct (live_bf _ _ _ _ I H1) as [SB ES]. destruct (live_bf _ _ _ _ I H2) as [DB ED].
  destruct (buf_of_ok _ _ _ _ _ I ES) as (TS & SC & _). destruct (buf_of_ok _ _ _ _ _ I ED) as (TD & DC & _).
  assert (D : disj (bhead DB :: L (OB db)) (bhead SB :: L (OB sb))).
  { rewrite <- (cells_b s L db DB ED), <- (cells_b s L sb SB ES). eapply disj_tb; eauto. congruence. }
  destruct (Copy_ok _ _ _ _ _ _ _ TS TD D) as (m' & DB' & dl' & E & BH & BO & C & K & F).
  cbn [step astep fst snd]. rewrite ES, ED. cbn [some bind]. rewrite E. cbn [bind].
  eexists _, _. split; [reflexivity|]. rewrite DC, SC, <- C. eapply Inv_b; eauto. intros w W _ _ Q. discriminate Q.
Qed.
Lemma s_writeel : forall s a L w id, Inv s a L -> legal a (WriteEl w id) -> good s a (WriteEl w id).
Proof.
  intros s a L w id I H. unfold good. cbn [legal] in H.
  pose proof (i_w _ _ _ I w) as W. destruct (wr s w) as [W0|] eqn:EW; [|congruence].
  destruct W as ((wf & WF) & W2 & W3 & W4 & W5). destruct (bf s (wbuf W0)) as [B|] eqn:EB; [|congruence].
  destruct (buf_of_ok _ _ _ _ _ I EB) as (TB & BC & _).
  destruct (WriteElem_ok _ _ _ W0 B _ id wf TB WF) as (m' & B' & bl' & E & BH & BO & C & (l' & u & EL & EK) & K & F).
  cbn [step astep]. rewrite EW, W2. cbn [some bind fst snd awbuf awfnt awcol awvoff]. rewrite EB. cbn [some bind]. rewrite E.
  eexists _, _. split; [reflexivity|]. rewrite BC, <- C. eapply Inv_b; eauto.
  intros w' W' _ _ _ l2 u2 o asc E2 K2. rewrite EL in E2. apply app_inj_tail in E2 as [_ <-]. congruence.
Qed.
Lemma s_writech : forall s a L w ch, Inv s a L -> legal a (WriteCh w ch) -> good s a (WriteCh w ch).
Proof.
  intros s a L w ch I (A & HA & HM). unfold good.
  pose proof (i_w _ _ _ I w) as W. destruct (wr s w) as [W0|] eqn:EW; [|congruence].
  destruct W as ((wf & WF) & W2 & W3 & W4 & W5). destruct (bf s (wbuf W0)) as [B|] eqn:EB; [|congruence].
  rewrite W2 in HA. injection HA as <-. cbn [awbuf] in HM. specialize (W5 HM).
  destruct (buf_of_ok _ _ _ _ _ I EB) as (TB & BC & _).
  destruct (Write_ok _ _ _ W0 B _ ch wf TB WF W3 W5) as (m' & B' & bl' & E & BH & BO & C & TP & (l' & u & o & EL & EK) & [K1 K2] & F).
  cbn [step astep]. rewrite EW, W2. cbn [some bind fst snd awbuf awfnt awcol awvoff]. rewrite EB. cbn [some bind]. rewrite E. cbn [bind].
  eexists _, (updo L (OB (wbuf W0)) bl'). split; [reflexivity|]. rewrite BC, <- C.
  set (b := wbuf W0) in *. set (f := wfile W0) in *. set (fl' := upd (fl s) f (fl s f ++ [ch])) in *.
  match goal with |- Inv ?s0 ?a0 _ => set (s' := s0); set (a' := a0) end.
  set (L' := updo L (OB b) bl').
  assert (ELB : L' (OB b) = bl') by apply updo_eq.
  assert (EX : bf s' b = Some B') by apply upd_eq.
  assert (EA : abf a' b = Some {| aitems := content fl' m' bl'; mixed := mixed_of a b |}) by apply upd_eq.
  destruct (transfer s a L s' a' L' [OB b] I) as (P1 & P2 & P3).
  - intros q N. assert (NE : q <> OB b) by (intros ->; apply N; left; auto). split; [|unfold L'; rewrite updo_neq; auto].
    destruct q as [t'|b']; [split; reflexivity|]. split; apply upd_neq; congruence.
  - exact K1.
  - intros c Q N. apply K2; [exact Q|]. specialize (N (OB b) (or_introl eq_refl)). rewrite (cells_b _ _ _ _ EB) in N. exact N.
  - unfold s'. cbn [fl nf]. apply grows_snoc.
  - intros q [<-|[]]. cbn [ok]. rewrite EX, ELB. split; [exact BO|]. eexists. exact EA.
  - intros q c [<-|[]] Q. rewrite (cells_b _ _ _ _ EX), ELB in Q. destruct Q as [Q|Q].
    + left. exists (OB b). split; [left; auto|]. rewrite (cells_b _ _ _ _ EB). left. congruence.
    + destruct (F c Q) as [R|R]; [left|right; apply R]. exists (OB b). split; [left; auto|]. rewrite (cells_b _ _ _ _ EB). exact R.
  - intros o1 o2 c [<-|[]] [<-|[]] _ _. reflexivity.
  - constructor; auto; try apply I.
    + intros b' Q. unfold s'. cbn [bf]. cbn [s' nb] in Q. rewrite upd_neq; [apply I; exact Q|].
      intros ->. pose proof (i_fresh _ _ _ I b Q). congruence.
    + intros w'. pose proof (i_w _ _ _ I w') as V. change (wr s' w') with (wr s w'). destruct (wr s w') as [W'|] eqn:EW'; [|exact V].
      destruct (Nat.eq_dec (wbuf W') b) as [Eb|NB].
      * destruct V as (V1 & V2 & V3 & V4 & V5). split; [exact V1|]. split; [exact V2|]. split; [exact V3|]. rewrite Eb.
        split; [rewrite EX; discriminate|]. intros _. rewrite ELB. change (mm s') with m'. change (fl s') with fl'.
        destruct (Nat.eq_dec (wfile W') f) as [EF|NF]; [rewrite EF; exact TP|].
        intros l2 u2 o2 asc E2 K3. rewrite EL in E2. apply app_inj_tail in E2 as [_ <-]. congruence.
      * assert (NF : wfile W' <> f).
        { intros Q. pose proof (i_wd _ _ _ I w' w W' W0 EW' EW Q) as ->. rewrite EW in EW'. injection EW' as <-. apply NB. reflexivity. }
        apply (wok_keep s a L s' a' L' W' w' I V); [reflexivity|apply le_n| | | | |].
        -- unfold s'. cbn [bf]. apply upd_neq; auto.
        -- unfold mixed_of, a', aw_b. cbn [abf]. rewrite upd_neq; auto.
        -- unfold L'. rewrite updo_neq; [reflexivity|congruence].
        -- unfold s', fl'. cbn [fl]. apply upd_neq; auto.
        -- intros c Q. eapply P3; [|exact Q]. intros [R|[]]. congruence.
Qed.

Lemma step_ok : forall s a L c, Inv s a L -> legal a c -> good s a c.
Proof.
  intros s a L c I H. destruct c;
    eauto using s_open, s_newbuf, s_newwriter, s_setlooks, s_writech, s_writeel, s_copy, s_recall, s_save, s_insert, s_append,
      s_delete, s_change, s_len, s_blen, s_readn.
Qed.
Theorem run_ok : forall a l r a', history a l r a' -> forall s L, Inv s a L ->
  exists s' L', run s l = Ok (s', r) /\ Inv s' a' L'.
Proof.
  intros a l r a' H. induction H as [a|a c l ans r a1 a2 HL HS HH IH]; intros s L I.
  - exists s, L. split; [reflexivity|exact I].
  - destruct (step_ok s a L c I HL) as (s1 & L1 & E1 & I1). rewrite HS in E1, I1. cbn [fst snd] in *.
    destruct (IH s1 L1 I1) as (s2 & L2 & E2 & I2). exists s2, L2. split; [|exact I2].
    cbn [run]. rewrite E1. cbn [bind]. rewrite E2. reflexivity.
Qed.
