(** The invariant of the machine and its preservation (for C32). *)
From Verif Require Import Base TextsModel TextsSpec TextsRing TextsLocal TextsOps TextsOps2 TextsOps3 TextsOps4.

Inductive own := OT (t : nat) | OB (b : nat).
Definition own_eq (a b : own) : {a = b} + {a <> b}.
Proof. decide equality; apply Nat.eq_dec. Defined.
Definition updo {A} (f : own -> A) (o : own) (x : A) : own -> A := fun q => if own_eq q o then x else f q.
Lemma updo_eq : forall A (f : own -> A) o x, updo f o x o = x.
Proof. intros. unfold updo. destruct (own_eq o o); congruence. Qed.
Lemma updo_neq : forall A (f : own -> A) o x q, q <> o -> updo f o x q = f q.
Proof. intros. unfold updo. destruct (own_eq q o); congruence. Qed.

Definition cells (s : state) (L : own -> list loc) (o : own) : list loc :=
  match o with
  | OT t => match tx s t with Some x => thead x :: L o | None => [] end
  | OB b => match bf s b with Some B => bhead B :: L o | None => [] end
  end.
Definition ok (s : state) (a : astate) (L : own -> list loc) (o : own) : Prop :=
  match o with
  | OT t => match tx s t with
            | Some x => Tok (fl s) (nf s) (mm s) t x (L o) /\ atx a t = Some (content (fl s) (mm s) (L o))
            | None => atx a t = None
            end
  | OB b => match bf s b with
            | Some B => Bok (fl s) (nf s) (mm s) B (L o) /\
                        exists mx, abf a b = Some {| aitems := content (fl s) (mm s) (L o); mixed := mx |}
            | None => abf a b = None
            end
  end.
Definition wok (s : state) (a : astate) (L : own -> list loc) (W : writer) (w : nat) : Prop :=
  (exists wf, wfnt W = Some wf) /\
  awr a w = Some {| awbuf := wbuf W; awfnt := wfnt W; awcol := wcol W; awvoff := wvoff W |} /\
  (wfile W < nf s)%nat /\ bf s (wbuf W) <> None /\
  (mixed_of a (wbuf W) = false -> tip (fl s) (mm s) (wfile W) (L (OB (wbuf W)))).
Record Inv (s : state) (a : astate) (L : own -> list loc) : Prop := {
  i_ok : forall o, ok s a L o;
  i_dj : forall o1 o2 c, In c (cells s L o1) -> In c (cells s L o2) -> o1 = o2;
  i_nb : anb a = nb s;
  i_fresh : forall b, (nb s <= b)%nat -> bf s b = None;
  i_del : adel a = del s;
  i_w : forall w, match wr s w with Some W => wok s a L W w | None => awr a w = None end;
  i_wd : forall w1 w2 W1 W2, wr s w1 = Some W1 -> wr s w2 = Some W2 -> wfile W1 = wfile W2 -> w1 = w2 }.

Lemma Inv_init : Inv init ainit (fun _ => []).
Proof.
  constructor; auto.
  - intros [t|b]; reflexivity.
  - intros [t|b] o2 c A; destruct A.
  - intros w; reflexivity.
  - intros w1 w2 W1 W2 A. discriminate A.
Qed.
Lemma cells_lt : forall s a L o c, Inv s a L -> In c (cells s L o) -> (c < nxt (mm s))%nat.
Proof.
  intros s a L o c I C. pose proof (i_ok _ _ _ I o) as K. destruct o as [t|b]; cbn [cells ok] in *.
  - destruct (tx s t) as [x|]; [|destruct C]. destruct K as [(_ & _ & _ & _ & B & _) _]. apply B. exact C.
  - destruct (bf s b) as [x|]; [|destruct C]. destruct K as [(_ & _ & _ & _ & B) _]. apply B. exact C.
Qed.
Definition same_obj (s s' : state) (a a' : astate) (o : own) : Prop :=
  match o with
  | OT t => tx s' t = tx s t /\ atx a' t = atx a t
  | OB b => bf s' b = bf s b /\ abf a' b = abf a b
  end.
Lemma transfer : forall s a L s' a' L' ts, Inv s a L ->
  (forall o, ~ In o ts -> same_obj s s' a a' o /\ L' o = L o) ->
  (nxt (mm s) <= nxt (mm s'))%nat ->
  (forall c, (c < nxt (mm s))%nat -> (forall o, In o ts -> ~ In c (cells s L o)) -> same_at (mm s) (mm s') c) ->
  grows (fl s) (fl s') (nf s) (nf s') ->
  (forall o, In o ts -> ok s' a' L' o) ->
  (forall o c, In o ts -> In c (cells s' L' o) -> (exists o', In o' ts /\ In c (cells s L o')) \/ (nxt (mm s) <= c)%nat) ->
  (forall o1 o2 c, In o1 ts -> In o2 ts -> In c (cells s' L' o1) -> In c (cells s' L' o2) -> o1 = o2) ->
  (forall o, ok s' a' L' o) /\
  (forall o1 o2 c, In c (cells s' L' o1) -> In c (cells s' L' o2) -> o1 = o2) /\
  (forall o c, ~ In o ts -> In c (cells s L o) -> same_at (mm s) (mm s') c).
Proof.
  intros s a L s' a' L' ts I SO NX SM GR OK CE DJ.
  assert (KEEP : forall o c, ~ In o ts -> In c (cells s L o) -> same_at (mm s) (mm s') c).
  { intros o c N C. apply SM; [eapply cells_lt; eauto|]. intros o' O' C'. pose proof (i_dj _ _ _ I o o' c C C'). congruence. }
  assert (CEQ : forall o, ~ In o ts -> cells s' L' o = cells s L o).
  { intros o N. destruct (SO o N) as [Q E]. destruct o as [t|b]; cbn [same_obj cells] in *; destruct Q as [-> _]; rewrite E; reflexivity. }
  split; [|split; [|exact KEEP]].
  - intros o. destruct (in_dec own_eq o ts) as [Q|Q]; [auto|].
    pose proof (i_ok _ _ _ I o) as K. pose proof (fun c => KEEP o c Q) as KP. destruct (SO o Q) as [SQ E].
    destruct o as [t|b]; cbn [ok same_obj cells] in *; destruct SQ as [-> ->]; rewrite E.
    + destruct (tx s t) as [x|]; [|exact K]. destruct K as [K1 K2].
      destruct (Tok_frame (fl s) (fl s') (nf s) (nf s') (mm s) (mm s') t x (L (OT t)) K1 KP NX GR) as [T1 T2].
      split; [exact T1|]. rewrite T2. exact K2.
    + destruct (bf s b) as [x|]; [|exact K]. destruct K as [K1 K2].
      destruct (Bok_frame (fl s) (fl s') (nf s) (nf s') (mm s) (mm s') x (L (OB b)) K1 KP NX GR) as [T1 T2].
      split; [exact T1|]. rewrite T2. exact K2.
  - assert (X : forall o1 o2 c, In o1 ts -> ~ In o2 ts -> In c (cells s' L' o1) -> In c (cells s' L' o2) -> False).
    { intros o1 o2 c Q1 Q2 C1 C2. rewrite (CEQ o2 Q2) in C2. destruct (CE o1 c Q1 C1) as [(o' & O' & C')|LE].
      - pose proof (i_dj _ _ _ I o' o2 c C' C2). congruence.
      - pose proof (cells_lt _ _ _ _ _ I C2). lia. }
    intros o1 o2 c C1 C2. destruct (in_dec own_eq o1 ts) as [Q1|Q1]; destruct (in_dec own_eq o2 ts) as [Q2|Q2].
    + eauto.
    + exfalso. eauto.
    + exfalso. eauto.
    + rewrite (CEQ o1 Q1) in C1. rewrite (CEQ o2 Q2) in C2. eapply i_dj; eauto.
Qed.
Lemma tip_frame : forall files files' m m' f l, tip files m f l -> (forall a, In a l -> bd m' a = bd m a) -> files' f = files f ->
  tip files' m' f l.
Proof.
  intros files files' m m' f l T E F l' a o asc EL K. unfold lenof. rewrite F.
  assert (A : In a l) by (rewrite EL; apply in_app_iff; right; left; auto). rewrite (E a A) in *. eapply T; eauto.
Qed.
Lemma tip_nil : forall files m f, tip files m f [].
Proof. intros files m f l' a o asc E. destruct l'; discriminate E. Qed.
(** A writer whose buffer is not touched and whose file is unchanged. *)
Lemma wok_keep : forall s a L s' a' L' W w, Inv s a L -> wok s a L W w -> awr a' w = awr a w -> (nf s <= nf s')%nat ->
  bf s' (wbuf W) = bf s (wbuf W) -> mixed_of a' (wbuf W) = mixed_of a (wbuf W) -> L' (OB (wbuf W)) = L (OB (wbuf W)) ->
  fl s' (wfile W) = fl s (wfile W) ->
  (forall c, In c (cells s L (OB (wbuf W))) -> same_at (mm s) (mm s') c) -> wok s' a' L' W w.
Proof.
  intros s a L s' a' L' W w I (W1 & W2 & W3 & W4 & W5) EA N EB EM EL EF K.
  split; [exact W1|]. split; [congruence|]. split; [lia|]. split; [congruence|]. rewrite EM, EL. intros M.
  eapply tip_frame; [exact (W5 M)| |exact EF]. intros c C. apply K. cbn [cells].
  destruct (bf s (wbuf W)); [right; exact C|congruence].
Qed.
Lemma text_of_ok : forall s a L t x, Inv s a L -> tx s t = Some x ->
  Tok (fl s) (nf s) (mm s) t x (L (OT t)) /\ text_of a t = content (fl s) (mm s) (L (OT t)) /\
  Z.of_nat (length (text_of a t)) = total (mm s) (L (OT t)).
Proof.
  intros s a L t x I E. pose proof (i_ok _ _ _ I (OT t)) as K. cbn [ok] in K. rewrite E in K. destruct K as [K1 K2].
  unfold text_of. rewrite K2. split; [exact K1|]. split; [reflexivity|]. destruct K1 as (_ & _ & O & _). eapply content_len; eauto.
Qed.
Lemma buf_of_ok : forall s a L b B, Inv s a L -> bf s b = Some B ->
  Bok (fl s) (nf s) (mm s) B (L (OB b)) /\ buf_of a b = content (fl s) (mm s) (L (OB b)) /\
  Z.of_nat (length (buf_of a b)) = total (mm s) (L (OB b)).
Proof.
  intros s a L t x I E. pose proof (i_ok _ _ _ I (OB t)) as K. cbn [ok] in K. rewrite E in K. destruct K as [K1 [mx K2]].
  unfold buf_of. rewrite K2. cbn [aitems]. split; [exact K1|]. split; [reflexivity|]. destruct K1 as (_ & _ & O & _). eapply content_len; eauto.
Qed.
Lemma live_tx : forall s a L t, Inv s a L -> live a t -> exists x, tx s t = Some x.
Proof.
  intros s a L t I H. pose proof (i_ok _ _ _ I (OT t)) as K. cbn [ok] in K. destruct (tx s t); [eauto|contradiction].
Qed.
Lemma live_bf : forall s a L t, Inv s a L -> livebuf a t -> exists x, bf s t = Some x.
Proof.
  intros s a L t I H. pose proof (i_ok _ _ _ I (OB t)) as K. cbn [ok] in K. destruct (bf s t); [eauto|contradiction].
Qed.
Lemma disj_tb : forall s a L o1 o2, Inv s a L -> o1 <> o2 -> disj (cells s L o1) (cells s L o2).
Proof. intros s a L o1 o2 I N c C1 C2. apply N. eapply i_dj; eauto. Qed.
Lemma cells_t : forall s L t x, tx s t = Some x -> cells s L (OT t) = thead x :: L (OT t).
Proof. intros. cbn [cells]. rewrite H. reflexivity. Qed.
Lemma cells_b : forall s L b B, bf s b = Some B -> cells s L (OB b) = bhead B :: L (OB b).
Proof. intros. cbn [cells]. rewrite H. reflexivity. Qed.
Lemma clip_min : forall (l : list item) p n, 0 <= p -> Z.of_nat (length l) = n -> clip l p = Z.to_nat (Z.min p n).
Proof. intros. unfold clip. lia. Qed.

Lemma Inv_aext : forall s a a' L, Inv s a L -> (forall t, atx a' t = atx a t) -> (forall b, abf a' b = abf a b) ->
  anb a' = anb a -> (forall w, awr a' w = awr a w) -> adel a' = adel a -> Inv s a' L.
Proof.
  intros s a a' L I E1 E2 E3 E4 E5. destruct I as [I1 I2 I3 I4 I5 I6 I7]. constructor; auto; try congruence.
  - intros [t|b]; [pose proof (I1 (OT t)) as K|pose proof (I1 (OB b)) as K]; cbn [ok] in *.
    + rewrite E1. exact K.
    + rewrite E2. exact K.
  - intros w. pose proof (I6 w) as K. destruct (wr s w) as [W|]; [|congruence].
    destruct K as (K1 & K2 & K3 & K4 & K5). split; [exact K1|]. split; [congruence|]. split; [exact K3|]. split; [exact K4|].
    unfold mixed_of in *. rewrite E2. exact K5.
Qed.
Lemma no_head : forall files n base m l h v c, runs_ok files n base m l -> bd m h = headrun v c -> ~ In h l.
Proof.
  intros files n base m l h v c R E C. unfold runs_ok in R. pose proof (R h C) as K. rewrite E in K.
  unfold body_ok in K. cbn [headrun kd] in K. tauto.
Qed.

(** One text changed. *)
Lemma Inv_tx : forall s a L t x m' x' l', Inv s a L -> tx s t = Some x -> Tok (fl s) (nf s) m' t x' l' -> thead x' = thead x ->
  keeps (mm s) m' (thead x :: L (OT t)) -> from (mm s) m' (thead x :: L (OT t)) l' ->
  Inv (with_tx s m' t x') (aw_tx a t (content (fl s) m' l')) (updo L (OT t) l').
Proof.
  intros s a L t x m' x' l' I E T TH [K1 K2] F.
  set (s' := with_tx s m' t x'). set (a' := aw_tx a t (content (fl s) m' l')). set (L' := updo L (OT t) l').
  assert (EL : L' (OT t) = l') by apply updo_eq.
  assert (EX : tx s' t = Some x') by apply upd_eq.
  destruct (transfer s a L s' a' L' [OT t] I) as (P1 & P2 & P3).
  - intros o N. assert (NE : o <> OT t) by (intros ->; apply N; left; auto). split; [|unfold L'; rewrite updo_neq; auto].
    destruct o as [t'|b']; [|split; reflexivity]. split; apply upd_neq; congruence.
  - exact K1.
  - intros c C N. apply K2; [exact C|]. specialize (N (OT t) (or_introl eq_refl)). rewrite (cells_t _ _ _ _ E) in N. exact N.
  - apply grows_refl.
  - intros o [<-|[]]. cbn [ok]. rewrite EX, EL. split; [exact T|]. apply upd_eq.
  - intros o c [<-|[]] C. rewrite (cells_t _ _ _ _ EX), EL in C. destruct C as [C|C].
    + left. exists (OT t). split; [left; auto|]. rewrite (cells_t _ _ _ _ E). left. congruence.
    + destruct (F c C) as [Q|Q]; [left|right; apply Q]. exists (OT t). split; [left; auto|]. rewrite (cells_t _ _ _ _ E). exact Q.
  - intros o1 o2 c [<-|[]] [<-|[]] _ _. reflexivity.
  - constructor; auto; try apply I.
    intros w. pose proof (i_w _ _ _ I w) as W. change (wr s' w) with (wr s w). destruct (wr s w) as [W0|] eqn:EW; [|exact W].
    apply (wok_keep s a L s' a' L' W0 w I W); [reflexivity|apply le_n|reflexivity|reflexivity| |reflexivity|].
    + unfold L'. rewrite updo_neq; [reflexivity|discriminate].
    + intros c C. eapply P3; [|exact C]. intros [Q|[]]. discriminate Q.
Qed.

(** One buffer changed. *)
Lemma Inv_b : forall s a L b B m' B' l' mx, Inv s a L -> bf s b = Some B -> Bok (fl s) (nf s) m' B' l' -> bhead B' = bhead B ->
  keeps (mm s) m' (bhead B :: L (OB b)) -> from (mm s) m' (bhead B :: L (OB b)) l' ->
  (forall w W, wr s w = Some W -> wbuf W = b -> mx = false -> tip (fl s) m' (wfile W) l') ->
  Inv (with_b s m' b B') (aw_b a b (content (fl s) m' l') mx) (updo L (OB b) l').
Proof.
  intros s a L b B m' B' l' mx I E T TH [K1 K2] F TP.
  set (s' := with_b s m' b B'). set (a' := aw_b a b (content (fl s) m' l') mx). set (L' := updo L (OB b) l').
  assert (EL : L' (OB b) = l') by apply updo_eq.
  assert (EX : bf s' b = Some B') by apply upd_eq.
  assert (EA : abf a' b = Some {| aitems := content (fl s) m' l'; mixed := mx |}) by apply upd_eq.
  destruct (transfer s a L s' a' L' [OB b] I) as (P1 & P2 & P3).
  - intros o N. assert (NE : o <> OB b) by (intros ->; apply N; left; auto). split; [|unfold L'; rewrite updo_neq; auto].
    destruct o as [t'|b']; [split; reflexivity|]. split; apply upd_neq; congruence.
  - exact K1.
  - intros c C N. apply K2; [exact C|]. specialize (N (OB b) (or_introl eq_refl)). rewrite (cells_b _ _ _ _ E) in N. exact N.
  - apply grows_refl.
  - intros o [<-|[]]. cbn [ok]. rewrite EX, EL. split; [exact T|]. exists mx. exact EA.
  - intros o c [<-|[]] C. rewrite (cells_b _ _ _ _ EX), EL in C. destruct C as [C|C].
    + left. exists (OB b). split; [left; auto|]. rewrite (cells_b _ _ _ _ E). left. congruence.
    + destruct (F c C) as [Q|Q]; [left|right; apply Q]. exists (OB b). split; [left; auto|]. rewrite (cells_b _ _ _ _ E). exact Q.
  - intros o1 o2 c [<-|[]] [<-|[]] _ _. reflexivity.
  - constructor; auto; try apply I.
    + intros b' Q. unfold s', with_b. cbn [bf]. cbn [s' with_b nb] in Q. rewrite upd_neq; [apply I; exact Q|].
      intros ->. pose proof (i_fresh _ _ _ I b Q). congruence.
    + intros w. pose proof (i_w _ _ _ I w) as W. change (wr s' w) with (wr s w). destruct (wr s w) as [W0|] eqn:EW; [|exact W].
      destruct (Nat.eq_dec (wbuf W0) b) as [EB|NB].
      * destruct W as (W1 & W2 & W3 & W4 & W5). split; [exact W1|]. split; [exact W2|]. split; [exact W3|]. rewrite EB.
        split; [rewrite EX; discriminate|]. unfold mixed_of. rewrite EA, EL. intros M. eapply TP; eauto.
      * apply (wok_keep s a L s' a' L' W0 w I W); [reflexivity|apply le_n| | | |reflexivity|].
        -- unfold s', with_b. cbn [bf]. apply upd_neq; auto.
        -- unfold mixed_of, a', aw_b. cbn [abf]. rewrite upd_neq; auto.
        -- unfold L'. rewrite updo_neq; [reflexivity|congruence].
        -- intros c C. eapply P3; [|exact C]. intros [Q|[]]. congruence.
Qed.

(** One text and one buffer changed. *)
Lemma Inv_tb : forall s a L t x b B m' x' l' B' bl' mx, Inv s a L -> tx s t = Some x -> bf s b = Some B ->
  Tok (fl s) (nf s) m' t x' l' -> thead x' = thead x -> Bok (fl s) (nf s) m' B' bl' -> bhead B' = bhead B ->
  disj (thead x' :: l') (bhead B' :: bl') ->
  keeps (mm s) m' ((thead x :: L (OT t)) ++ bhead B :: L (OB b)) ->
  from (mm s) m' ((thead x :: L (OT t)) ++ bhead B :: L (OB b)) l' ->
  from (mm s) m' ((thead x :: L (OT t)) ++ bhead B :: L (OB b)) bl' ->
  (mx = true \/ bl' = []) ->
  Inv (with_tb s m' t x' b B') (aw_b (aw_tx a t (content (fl s) m' l')) b (content (fl s) m' bl') mx)
      (updo (updo L (OT t) l') (OB b) bl').
Proof.
  intros s a L t x b B m' x' l' B' bl' mx I E EB T TH TB BH DJ [K1 K2] F1 F2 TP.
  set (s' := with_tb s m' t x' b B'). set (a' := aw_b _ b _ mx). set (L' := updo (updo L (OT t) l') (OB b) bl').
  assert (EL : L' (OT t) = l') by (unfold L'; rewrite updo_neq by discriminate; apply updo_eq).
  assert (ELB : L' (OB b) = bl') by apply updo_eq.
  assert (EX : tx s' t = Some x') by apply upd_eq.
  assert (EXB : bf s' b = Some B') by apply upd_eq.
  assert (EA : abf a' b = Some {| aitems := content (fl s) m' bl'; mixed := mx |}) by apply upd_eq.
  assert (CE : forall c, In c ((thead x :: L (OT t)) ++ bhead B :: L (OB b)) -> exists o', In o' [OT t; OB b] /\ In c (cells s L o')).
  { intros c C. apply in_app_iff in C. destruct C as [C|C].
    - exists (OT t). split; [left; auto|]. rewrite (cells_t _ _ _ _ E). exact C.
    - exists (OB b). split; [right; left; auto|]. rewrite (cells_b _ _ _ _ EB). exact C. }
  destruct (transfer s a L s' a' L' [OT t; OB b] I) as (P1 & P2 & P3).
  - intros o N. assert (NE : o <> OT t) by (intros ->; apply N; left; auto).
    assert (NE2 : o <> OB b) by (intros ->; apply N; right; left; auto).
    split; [|unfold L'; rewrite !updo_neq; auto].
    destruct o as [t'|b']; split; apply upd_neq; congruence.
  - exact K1.
  - intros c C N. apply K2; [exact C|]. intros Q. destruct (CE c Q) as (o' & O1 & O2). exact (N o' O1 O2).
  - apply grows_refl.
  - intros o [<-|[<-|[]]]; cbn [ok].
    + rewrite EX, EL. split; [exact T|]. apply upd_eq.
    + rewrite EXB, ELB. split; [exact TB|]. exists mx. exact EA.
  - intros o c [<-|[<-|[]]] C.
    + rewrite (cells_t _ _ _ _ EX), EL in C. destruct C as [C|C].
      * left. apply CE. left. congruence.
      * destruct (F1 c C) as [Q|Q]; [left; auto|right; apply Q].
    + rewrite (cells_b _ _ _ _ EXB), ELB in C. destruct C as [C|C].
      * left. apply CE. apply in_app_iff. right. left. congruence.
      * destruct (F2 c C) as [Q|Q]; [left; auto|right; apply Q].
  - intros o1 o2 c [<-|[<-|[]]] [<-|[<-|[]]] C1 C2; auto; exfalso;
    rewrite ?(cells_t _ _ _ _ EX), ?EL, ?(cells_b _ _ _ _ EXB), ?ELB in *; eapply DJ; eauto.
  - constructor; auto; try apply I.
    + intros b' Q. unfold s', with_tb. cbn [bf]. cbn [s' with_tb nb] in Q. rewrite upd_neq; [apply I; exact Q|].
      intros ->. pose proof (i_fresh _ _ _ I b Q). congruence.
    + intros w. pose proof (i_w _ _ _ I w) as W. change (wr s' w) with (wr s w). destruct (wr s w) as [W0|] eqn:EW; [|exact W].
      destruct (Nat.eq_dec (wbuf W0) b) as [Eb|NB].
      * destruct W as (W1 & W2 & W3 & W4 & W5). split; [exact W1|]. split; [exact W2|]. split; [exact W3|]. rewrite Eb.
        split; [rewrite EXB; discriminate|]. unfold mixed_of. rewrite EA, ELB. cbn [mixed]. intros M.
        destruct TP as [TP|TP]; [congruence|]. rewrite TP. apply tip_nil.
      * apply (wok_keep s a L s' a' L' W0 w I W); [reflexivity|apply le_n| | | |reflexivity|].
        -- unfold s', with_tb. cbn [bf]. apply upd_neq; auto.
        -- unfold mixed_of, a', aw_b. cbn [abf aw_tx]. rewrite upd_neq; auto.
        -- unfold L'. rewrite !updo_neq; [reflexivity|discriminate|congruence].
        -- intros c C. eapply P3; [|exact C]. intros [Q|[Q|[]]]; congruence.
Qed.
