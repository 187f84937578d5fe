(** The generated C structs and pointer tables (C43). *)
From Verif Require Import Base OpsProps LayModel LayProps.

Combined Scheme styp_both from styp_mut, sfields_mut.
Section C.
Variables (Alignment AddressSize : Z).
Hypothesis HA : Alignment = 4 \/ Alignment = 8.
Hypothesis HP : AddressSize = 4 \/ AddressSize = 8.
Notation BA := (BaseAlignment Alignment).
Notation SA := (SizeAlignment Alignment).
Notation decl := (declare Alignment).
Notation FL := (FieldList Alignment).
Notation csize := (csize Alignment).
Notation calign := (calign Alignment).
Notation mend := (mend Alignment).
Notation malign := (malign Alignment).
Notation moffsets := (moffsets Alignment).
Notation laid := (laid Alignment AddressSize).
Notation laidF := (laidF Alignment AddressSize).
Notation base_of := (base_of Alignment).

(** Specification of what C sees: the C type has the size and alignment the compiler assumes. *)
Definition faithful (s : styp) : Prop := csize (decl s) = size_of s /\ calign (decl s) = BA s.
(** The offsets of the fields that are written. *)
Fixpoint visible (fs : sfields) : list Z :=
  match fs with SNone => [] | SAdd fs v _ adr => visible fs ++ (if v then [adr] else []) | SExt _ b _ _ _ => visible b end.
(** The largest alignment of a written field, and the end of the last one. *)
Fixpoint vis_align (fs : sfields) : Z :=
  match fs with SNone => 1 | SAdd fs v t _ => if v then Z.max (vis_align fs) (BA t) else vis_align fs | SExt _ b _ _ _ => vis_align b end.
Fixpoint vis_end (fs : sfields) : Z :=
  match fs with SNone => 0 | SAdd fs v t adr => if v then adr + size_of t else vis_end fs | SExt _ b _ _ _ => vis_end b end.
(** No hidden fields before a written field whose alignment does not fit the end of the written field before. *)
Fixpoint tight (fs : sfields) : Prop :=
  match fs with
  | SNone => True
  | SAdd fs v t _ => tight fs /\ (v = true -> vis_end fs = end_of fs \/ vis_end fs mod BA t = 0)
  | SExt _ b _ _ _ => tight b
  end.
(** A record is fit if the largest alignment is that of a written field, or if it is tight; and so are the records in it. *)
Fixpoint fit (s : styp) : Prop :=
  match s with
  | SArr _ e _ => fit e
  | SRec _ fs _ align _ => (vis_align fs = align \/ tight fs) /\ fitF fs
  | _ => True
  end
with fitF (fs : sfields) : Prop :=
  match fs with SNone => True | SAdd fs v t _ => fitF fs /\ (v = true -> fit t) | SExt _ b _ _ _ => fitF b end.

Lemma min_pow : forall a, pow a -> a <= Alignment -> Z.min a Alignment = a.
Proof. intros. lia. Qed.
Lemma ru0 : forall x, round_up x 1 = x.
Proof. intros. unfold round_up. rewrite Z.mod_1_r. lia. Qed.
Lemma FillGap_spec : forall gap off A ms cur ms' cur', pow A -> A <= Alignment -> 0 < gap -> mend ms = off -> FillGap gap off A ms cur = (ms', cur') ->
  mend ms' = off + gap /\ moffsets ms' = moffsets ms /\
  (if (cur <? A) && (round_up off A + A <=? off + gap) then cur' = A /\ malign ms' = Z.max (malign ms) A else cur' = cur /\ malign ms' = Z.max (malign ms) 1).
Proof.
  intros gap off A ms cur ms' cur' P L G M H. unfold FillGap in H. rewrite Align_up in H by exact P. pose proof (up off A P) as (U & U0).
  replace (gap - (round_up off A - off) >=? A) with (round_up off A + A <=? off + gap) in H by (clear; destruct (round_up off A + A <=? off + gap) eqn:E, (gap - (round_up off A - off) >=? A) eqn:E'; lia).
  assert (MIN : Z.min 1 Alignment = 1) by (destruct HA; lia).
  destruct ((cur <? A) && (round_up off A + A <=? off + gap)) eqn:E.
  - assert (X : mend (MAdd ms true (CScalar A)) = round_up off A + A) by (cbn [LayModel.mend LayModel.calign LayModel.csize]; rewrite M, min_pow by assumption; reflexivity). apply andb_prop in E as [E1 E2]. apply Z.leb_le in E2.
    destruct (gap - (round_up off A - off + A) >? 0) eqn:E3; injection H as <- <-.
    + split; [| split].
      * cbn [LayModel.mend LayModel.calign LayModel.csize] in *. rewrite X, MIN, ru0. lia.
      * cbn [LayModel.moffsets]. rewrite !app_nil_r. reflexivity.
      * split; [reflexivity |]. cbn [LayModel.malign LayModel.calign]. rewrite MIN, min_pow by assumption. apply pow_pos in P. lia.
    + split; [| split].
      * rewrite X. lia.
      * cbn [LayModel.moffsets]. rewrite !app_nil_r. reflexivity.
      * split; [reflexivity |]. cbn [LayModel.malign LayModel.calign]. rewrite min_pow by assumption. reflexivity.
  - replace (gap >? 0) with true in H by lia. injection H as <- <-. split; [| split].
    + cbn [LayModel.mend LayModel.calign LayModel.csize]. rewrite M, MIN, ru0. lia.
    + cbn [LayModel.moffsets]. rewrite app_nil_r. reflexivity.
    + split; [reflexivity |]. cbn [LayModel.malign LayModel.calign]. rewrite MIN. reflexivity.
Qed.
Lemma malign_pos : forall ms, 1 <= malign ms.
Proof. induction ms; cbn [LayModel.malign]; lia. Qed.
Lemma up_mono : forall x y a, pow a -> x <= y -> round_up x a <= round_up y a.
Proof. intros x y a [-> | [-> | [-> | ->]]] H; unfold round_up; lia. Qed.
Lemma up_gap : forall off e a, pow a -> off <= e -> round_up (off + (round_up e a - round_up off a)) a = round_up e a.
Proof. intros off e a [-> | [-> | [-> | ->]]] H; unfold round_up; lia. Qed.
Lemma up_least : forall x h a, pow a -> x <= h -> h mod a = 0 -> round_up x a <= h.
Proof. intros x h a [-> | [-> | [-> | ->]]] H K; unfold round_up; lia. Qed.

(** The state of FieldList. *)
Definition inv (fs : sfields) (A : Z) (ms : cmems) (off cur : Z) : Prop :=
  mend ms = off /\ off = vis_end fs /\ 0 <= off <= end_of fs /\ cur = malign ms /\ vis_align fs <= cur <= A /\ pow cur /\ moffsets ms = visible fs /\
  (tight fs -> base_of fs = A -> cur = A \/ exists h, off <= h /\ h mod A = 0 /\ h + A <= end_of fs).

Lemma declare_rec : forall tr fs size align gap, decl (SRec tr fs size align gap) = let '(ms, off, curAlign) := FL fs align in
  CStruct (if (if size - gap =? 0 then 1 else size - gap - off) >? 0 then fst (FillGap (if size - gap =? 0 then 1 else size - gap - off) off align ms curAlign) else ms).
Proof. reflexivity. Qed.
Lemma csize_struct : forall ms, csize (CStruct ms) = round_up (mend ms) (malign ms).
Proof. reflexivity. Qed.
Lemma calign_struct : forall ms, calign (CStruct ms) = malign ms.
Proof. reflexivity. Qed.
Lemma mend_add : forall ms p c, mend (MAdd ms p c) = round_up (mend ms) (calign c) + csize c.
Proof. reflexivity. Qed.
Lemma malign_add : forall ms p c, malign (MAdd ms p c) = Z.max (malign ms) (calign c).
Proof. reflexivity. Qed.
Lemma moffsets_add : forall ms c, moffsets (MAdd ms false c) = moffsets ms ++ [round_up (mend ms) (calign c)].
Proof. reflexivity. Qed.
Lemma FL_add : forall fs t fadr align, FL (SAdd fs true t fadr) align = let '(ms, off, curAlign) := FL fs align in
  let '(ms, curAlign) := if fadr - Align off (BA t) >? 0 then FillGap (fadr - Align off (BA t)) off align ms (if BA t >? curAlign then BA t else curAlign) else (ms, if BA t >? curAlign then BA t else curAlign) in
  (MAdd ms false (decl t), fadr + size_of t, curAlign).
Proof. reflexivity. Qed.
Lemma declare_both : (forall s, laid s -> fit s -> faithful s) /\ (forall fs, laidF fs -> fitF fs -> forall A, pow A -> A <= Alignment -> base_of fs <= A -> let '(ms, off, cur) := FL fs A in inv fs A ms off cur).
Proof.
  apply (styp_both (fun s => laid s -> fit s -> faithful s)
    (fun fs => laidF fs -> fitF fs -> forall A, pow A -> A <= Alignment -> base_of fs <= A -> let '(ms, off, cur) := FL fs A in inv fs A ms off cur)).
  - intros z L _. cbn [LayProps.laid] in L. unfold faithful. cbn [declare LayModel.csize LayModel.calign size_of BaseAlignment]. destruct (pow_SA Alignment HA z L) as (_ & _ & E & _). auto.
  - intros t z L _. cbn [LayProps.laid] in L. subst z. unfold faithful. cbn [declare LayModel.csize LayModel.calign size_of BaseAlignment]. destruct (pow_SA Alignment HA _ (pow_addr _ HP)) as (_ & _ & E & _). auto.
  - intros z L _. cbn [LayProps.laid] in L. subst z. unfold faithful. cbn [declare LayModel.csize LayModel.calign size_of BaseAlignment]. destruct (pow_SA Alignment HA _ (pow_addr _ HP)) as (_ & _ & E & _). auto.
  - intros n e IH z L F. cbn [LayProps.laid LayProps.laidF fit fitF] in *. destruct L as (N & L & ->). destruct (IH L F) as (S1 & S2). unfold faithful. cbn [declare LayModel.csize LayModel.calign size_of BaseAlignment]. rewrite S1, S2. auto.
  - intros tr fs IH size align gap L F. cbn [LayProps.laid LayProps.laidF fit fitF] in *. destruct L as (L & FIN), F as (F & FF). pose proof (laidF_sound Alignment AddressSize HA HP fs L) as SF. pose proof (finished_sound Alignment AddressSize HA HP fs size align gap SF FIN) as (P & AL & _). destruct SF as (_ & _ & E0 & E1 & _). destruct FIN as (EA & ES & EG).
    specialize (IH L FF align P AL ltac:(lia)). unfold faithful. rewrite declare_rec. cbn [size_of BaseAlignment]. rewrite EG. destruct (FL fs align) as [[ms off] cur]. destruct IH as (I1 & I2 & I3 & I4 & I5 & I6 & I7 & I8).
    pose proof (malign_pos ms) as MP. assert (KEY : exists ms', CStruct (if (if end_of fs =? 0 then 1 else end_of fs - off) >? 0 then fst (FillGap (if end_of fs =? 0 then 1 else end_of fs - off) off align ms cur) else ms) = CStruct ms' /\ mend ms' = Z.max 1 (end_of fs) /\ malign ms' = align).
    { destruct (end_of fs =? 0) eqn:Q.
      - apply Z.eqb_eq in Q. specialize (E1 Q). assert (align = 1) as A1 by congruence. assert (off = 0) as O0 by lia. cbn [Z.gtb Z.compare]. destruct (FillGap 1 off align ms cur) as [ms' cur'] eqn:FG. exists ms'. split; [reflexivity |].
        destruct (FillGap_spec (1) _ _ _ _ _ _ P AL ltac:(lia) I1 FG) as (M1 & _ & M2). replace (cur <? align) with false in M2 by lia. cbn [andb] in M2. split; [lia |]. rewrite (proj2 M2). lia.
      - apply Z.eqb_neq in Q. assert (D : cur = align \/ exists h, off <= h /\ h mod align = 0 /\ h + align <= end_of fs). { destruct F as [F | F]; [left; lia | apply I8; [exact F | congruence]]. }
        destruct (end_of fs - off >? 0) eqn:G.
        + destruct (FillGap (end_of fs - off) off align ms cur) as [ms' cur'] eqn:FG. exists ms'. split; [reflexivity |]. destruct (FillGap_spec (end_of fs - off) _ _ _ _ _ _ P AL ltac:(lia) I1 FG) as (M1 & _ & M2). split; [lia |].
          destruct D as [D | (h & D1 & D2 & D3)].
          * replace (cur <? align) with false in M2 by lia. cbn [andb] in M2. lia.
          * destruct (Z.ltb_spec cur align) as [C | C]; cbn [andb] in M2; [| pose proof (malign_pos ms); lia].
            pose proof (up_least off h align P D1 D2). replace (round_up off align + align <=? off + (end_of fs - off)) with true in M2 by (clear D2; lia). lia.
        + exists ms. split; [reflexivity |]. split; [lia |]. destruct D as [D | (h & D1 & D2 & D3)]; [lia |]. exfalso. apply pow_pos in P. clear D2. lia. }
    destruct KEY as (ms' & -> & K1 & K2). rewrite csize_struct, calign_struct, K1, K2. split; congruence.
  - intros _ _ A P AL B. cbn [FieldList]. unfold inv. cbn [LayModel.mend vis_end end_of LayModel.malign vis_align LayModel.moffsets visible LayProps.base_of]. apply pow_pos in P as P1. unfold pow at 1. conjs; try lia; try reflexivity.
  - intros fs IH v t IHt adr L F A P AL B. cbn [LayProps.laid LayProps.laidF fit fitF LayProps.base_of] in *. destruct L as (L & T & EADR), F as (F & FT). specialize (IH L F A P AL ltac:(lia)). destruct (laid_sound Alignment AddressSize HA HP t T) as (PT & _ & _ & ST). pose proof (up (end_of fs) (BA t) PT) as (U & U0). rewrite <- EADR in U, U0.
    apply pow_pos in P as P1. apply pow_pos in PT as PT1.
    destruct v.
    + rewrite FL_add. destruct (IHt T (FT eq_refl)) as (CS & CA). destruct (FL fs A) as [[ms off] cur]. destruct IH as (I1 & I2 & I3 & I4 & I5 & I6 & I7 & I8). rewrite Align_up by exact PT.
      assert (GAP : 0 <= adr - round_up off (BA t)) by (pose proof (up_mono off (end_of fs) (BA t) PT ltac:(lia)); lia).
      set (cur1 := if BA t >? cur then BA t else cur). assert (C1 : cur1 = Z.max cur (BA t)) by (unfold cur1; destruct (BA t >? cur) eqn:Q; clear - Q; lia). clearbody cur1.
      assert (STEP : exists ms2 cur2, (if adr - round_up off (BA t) >? 0 then FillGap (adr - round_up off (BA t)) off A ms cur1 else (ms, cur1)) = (ms2, cur2) /\ round_up (mend ms2) (BA t) = adr /\ moffsets ms2 = moffsets ms /\
        Z.max (malign ms2) (BA t) = cur2 /\ cur1 <= cur2 <= A /\ pow cur2 /\ (cur1 < A -> round_up off A + A <= off + (adr - round_up off (BA t)) -> cur2 = A)).
      { destruct (adr - round_up off (BA t) >? 0) eqn:G.
        - destruct (FillGap (adr - round_up off (BA t)) off A ms cur1) as [ms2 cur2] eqn:FG. exists ms2, cur2. split; [reflexivity |]. destruct (FillGap_spec (adr - round_up off (BA t)) _ _ _ _ _ _ P AL ltac:(lia) I1 FG) as (M1 & M3 & M2).
          split; [rewrite M1, EADR; apply up_gap; [exact PT | lia] |]. split; [exact M3 |]. clear EADR I8 U0 FG. pose proof (malign_pos ms).
          destruct ((cur1 <? A) && (round_up off A + A <=? off + (adr - round_up off (BA t)))) eqn:E.
          + apply andb_prop in E as [E1 _]. destruct M2 as (-> & ->). split; [lia |]. split; [lia |]. split; [exact P | auto].
          + destruct M2 as (-> & ->). split; [lia |]. split; [lia |]. split; [rewrite C1; apply pow_max; assumption |]. intros X Y. exfalso. apply andb_false_iff in E as [E | E]; lia.
        - exists ms, cur1. split; [reflexivity |]. split; [rewrite I1; lia |]. split; [reflexivity |]. clear EADR I8 U0. split; [lia |]. split; [lia |]. split; [rewrite C1; apply pow_max; assumption |]. intros X Y. exfalso. pose proof (up off A P). pose proof (up off (BA t) PT). lia. }
      destruct STEP as (ms2 & cur2 & -> & S1 & S2 & S3 & S4 & S5 & S6). unfold inv. rewrite mend_add, malign_add, moffsets_add, CA, CS, S1, S2, I7. cbn [vis_end end_of vis_align visible LayProps.base_of tight].
      split; [reflexivity |]. split; [reflexivity |]. split; [lia |]. split; [clear - S3; lia |]. split; [clear - S3 S4 C1 I5; lia |]. split; [exact S5 |]. split; [reflexivity |].
      intros (TI & TV) BE. left. destruct (Z.eq_dec (BA t) A) as [EQ | NE]; [clear - S4 C1 EQ; lia |]. assert (BF : base_of fs = A) by (clear - BE NE; lia). destruct (I8 TI BF) as [C | (h & H1 & H2 & H3)]; [clear - S4 C1 C; lia |].
      destruct (Z.eq_dec cur1 A) as [C | C]; [clear - S4 C; lia |]. apply S6; [clear - C S4; lia |]. pose proof (up_least off h A P H1 H2) as HL. clear H2.
      destruct (TV eq_refl) as [V | V]; [exfalso; clear - V I2 H1 H3 P1; lia |]. rewrite <- I2 in V. assert (RO : round_up off (BA t) = off) by (unfold round_up; rewrite (Z.mod_opp_l_z off (BA t)) by (try exact V; clear - PT1; lia); lia). rewrite RO. clear - HL H3 U. lia.
    + change (FL (SAdd fs false t adr) A) with (FL fs A). destruct (FL fs A) as [[ms off] cur]. destruct IH as (I1 & I2 & I3 & I4 & I5 & I6 & I7 & I8). unfold inv. cbn [vis_end end_of vis_align visible LayProps.base_of tight]. rewrite app_nil_r.
      split; [exact I1 |]. split; [exact I2 |]. split; [clear - I3 U ST PT1; lia |]. split; [exact I4 |]. split; [exact I5 |]. split; [exact I6 |]. split; [exact I7 |].
      intros (TI & _) BE. destruct (Z.eq_dec (base_of fs) A) as [EQ | NE].
      * destruct (I8 TI EQ) as [C | (h & H1 & H2 & H3)]; [left; exact C |]. right. exists h. split; [exact H1 |]. split; [exact H2 |]. clear - H3 U ST PT1. lia.
      * right. assert (EQ : BA t = A) by (clear - BE NE; lia). exists adr. split; [clear - I3 U; lia |]. rewrite EQ in *. split; [exact U0 |]. clear - ST. lia.
  - intros tr b IH size align gap L F A P AL B. cbn [LayProps.laid LayProps.laidF fit fitF LayProps.base_of] in *. destruct L as (L & FIN). pose proof (laidF_sound Alignment AddressSize HA HP b L) as SF. pose proof (finished_sound Alignment AddressSize HA HP b size align gap SF FIN) as (P' & AL' & _). destruct FIN as (EA & ES & EG).
    specialize (IH L F align P' AL' ltac:(lia)). cbn [FieldList]. destruct (FL b align) as [[ms off] cur]. destruct IH as (I1 & I2 & I3 & I4 & I5 & I6 & I7 & I8). unfold inv. cbn [vis_end end_of vis_align visible LayProps.base_of tight]. rewrite EG.
    split; [exact I1 |]. split; [exact I2 |]. split; [exact I3 |]. split; [exact I4 |]. split; [clear - I5 B; lia |]. split; [exact I6 |]. split; [exact I7 |]. intros TI EQ. rewrite <- EQ. apply I8; [exact TI | congruence].
Qed.

(** Every written field is where the compiler put it, for every choice of hidden fields, if the records in it are fit. *)
Definition members (c : cty) : cmems := match c with CStruct ms => ms | _ => MNone end.
Theorem C43_offsets : forall tr fs sf size align gap, wfF fs -> TypSize Alignment AddressSize (TRec tr fs) = Ok (SRec tr sf size align gap) -> fitF sf ->
  moffsets (members (decl (SRec tr sf size align gap))) = visible sf.
Proof.
  intros tr fs sf size align gap W H F. pose proof (TypSize_laid Alignment AddressSize HA HP (TRec tr fs) W _ H) as L. cbn [LayProps.laid LayProps.laidF] in L. destruct L as (L & FIN). change (laidF sf) in L. pose proof (laidF_sound Alignment AddressSize HA HP sf L) as SF. pose proof (finished_sound Alignment AddressSize HA HP sf size align gap SF FIN) as (P & AL & _). destruct FIN as (EA & ES & EG).
  pose proof (proj2 declare_both sf L F align P AL ltac:(lia)) as I. rewrite declare_rec. destruct (FL sf align) as [[ms off] cur]. destruct I as (I1 & _ & _ & _ & _ & _ & I7 & _). cbn [members].
  destruct ((if size - gap =? 0 then 1 else size - gap - off) >? 0) eqn:G; [| exact I7]. destruct (FillGap (if size - gap =? 0 then 1 else size - gap - off) off align ms cur) as [ms' cur'] eqn:FG. cbn [fst].
  assert (G0 : 0 < (if size - gap =? 0 then 1 else size - gap - off)) by lia. destruct (FillGap_spec _ _ _ _ _ _ _ P AL G0 I1 FG) as (_ & M & _). rewrite M. exact I7.
Qed.
(** The C type of a fit type has the size and alignment the compiler assumes. *)
Theorem C43_size : forall t s, wf t -> TypSize Alignment AddressSize t = Ok s -> fit s -> csize (decl s) = size_of s /\ calign (decl s) = BA s.
Proof. intros t s W H F. apply (proj1 declare_both); [eapply TypSize_laid; eassumption | exact F]. Qed.
(** In the module's own C file, where all fields are written, every type is fit. *)
Fixpoint shown (t : typ) : Prop :=
  match t with TArr _ e => shown e | TRec _ fs => shownF fs | _ => True end
with shownF (fs : fields) : Prop :=
  match fs with FNone => True | FAdd fs v t => shownF fs /\ v = true /\ shown t | FExt _ b => shownF b end.
Lemma shown_fit : forall t, shown t -> forall s, TypSize Alignment AddressSize t = Ok s -> fit s.
Proof.
  apply (typ_mut (fun t => shown t -> forall s, TypSize Alignment AddressSize t = Ok s -> fit s)
    (fun fs => shownF fs -> forall s off base, TypFields Alignment AddressSize fs = Ok (s, off, base) -> fitF s /\ tight s /\ vis_end s = off /\ end_of s = off)); cbn [shown shownF TypSize TypFields]; intros.
  - injection H0 as <-. exact I.
  - injection H0 as <-. exact I.
  - injection H0 as <-. exact I.
  - apply bind_inv in H1 as (e & E & H1). apply bind_inv in H1 as (z & C & H1). injection H1 as <-. cbn [fit]. eapply H; eassumption.
  - apply bind_inv in H1 as (((f & off0) & base) & F & H1). destruct (H H0 _ _ _ F) as (X & Y & _). apply bind_inv in H1 as (((size & align) & gap) & Q & H1). injection H1 as <-. cbn [fit fitF]. split; [right; exact Y | exact X].
  - injection H0 as <- <- <-. cbn. auto.
  - destruct H1 as (S1 & -> & S2). apply bind_inv in H2 as (((f & off0) & base1) & F & H2). destruct (H S1 _ _ _ F) as (X & Y & V & E). apply bind_inv in H2 as (st & T & H2). specialize (H0 S2 _ T).
    apply bind_inv in H2 as (adr & A & H2). apply bind_inv in H2 as (o & B & H2). apply chk_inv in B. injection H2 as <- <- <-. cbn [fitF fit tight vis_end end_of]. split; [split; [exact X | intros _; exact H0] |]. split; [split; [exact Y | intros _; left; congruence] |]. auto.
  - apply bind_inv in H1 as (((f & off0) & base1) & F & H1). destruct (H H0 _ _ _ F) as (X & Y & V & E). apply bind_inv in H1 as (((size & align) & gap) & Q & H1). injection H1 as <- <- <-. cbn [fitF fit tight vis_end end_of].
    split; [exact X |]. split; [exact Y |]. split; [| reflexivity]. rewrite V. clear - Q HA HP F. unfold finish in Q. apply bind_inv in Q as (o & C & Q). injection Q as <- <- <-. apply chk_inv in C.
    assert (D : 0 <= o - off0 <= 16). { rewrite C. unfold Align. destruct (off0 =? 0) eqn:Z; destruct (base1 =? 2), (base1 =? 4), (base1 =? 8), (base1 =? 16); try lia. }
    unfold wrap_s. change (2 ^ 16) with 65536. change (2 ^ (16 - 1)) with 32768. lia.
Qed.
Theorem C43_own : forall t s, wf t -> shown t -> TypSize Alignment AddressSize t = Ok s -> csize (decl s) = size_of s /\ calign (decl s) = BA s.
Proof. intros t s W S H. eapply C43_size; [exact W | exact H |]. eapply shown_fit; eassumption. Qed.

(** * The pointer table *)
Definition offsets (l : list (Z * Z * bool)) : list Z := map (fun p => fst (fst p)) (filter (fun p => snd p) l).
Lemma offsets_app : forall a b, offsets (a ++ b) = offsets a ++ offsets b.
Proof. intros. unfold offsets. rewrite filter_app, map_app. reflexivity. Qed.
Lemma offsets_rep : forall k i f, offsets (rep k i f) = repeat_at k i (fun j => offsets (f j)).
Proof. induction k as [| k IH]; intros i f; cbn [rep repeat_at]; [reflexivity |]. rewrite offsets_app, IH. reflexivity. Qed.
Lemma repeat_ext : forall k i f g, (forall j, f j = g j) -> repeat_at k i f = repeat_at k i g.
Proof. induction k as [| k IH]; intros i f g H; cbn [repeat_at]; [reflexivity |]. rewrite H, (IH _ f g H). reflexivity. Qed.
Lemma repeat_app : forall a b i f, repeat_at (a + b) i f = repeat_at a i f ++ repeat_at b (i + Z.of_nat a) f.
Proof. induction a as [| a IH]; intros b i f; cbn [repeat_at Nat.add app]; [f_equal; lia |]. rewrite IH, <- app_assoc. do 2 f_equal. f_equal. lia. Qed.
Lemma repeat_shift : forall k i f, repeat_at k i f = repeat_at k 0 (fun j => f (i + j)).
Proof. assert (X : forall k i d f, repeat_at k (i + d) f = repeat_at k d (fun j => f (i + j))). { induction k as [| k IH]; intros i d f; cbn [repeat_at]; [reflexivity |]. replace (i + d + 1) with (i + (d + 1)) by lia. rewrite IH. reflexivity. } intros k i f. rewrite <- (X k i 0 f). f_equal. lia. Qed.
Lemma repeat_mul : forall n i m f, repeat_at n i (fun a => repeat_at m 0 (fun b => f (a * Z.of_nat m + b))) = repeat_at (n * m) (i * Z.of_nat m) f.
Proof.
  induction n as [| n IH]; intros i m f; cbn [repeat_at Nat.mul]; [reflexivity |]. rewrite repeat_app, IH. f_equal; [rewrite (repeat_shift m (i * Z.of_nat m)); reflexivity |]. f_equal. lia.
Qed.
Lemma repeat_len : forall k i f c, (forall j, Z.of_nat (length (f j)) = c) -> Z.of_nat (length (repeat_at k i f)) = c * Z.of_nat k.
Proof. induction k as [| k IH]; intros i f c H; cbn [repeat_at length]; [lia |]. rewrite app_length, Nat2Z.inj_add, H, (IH _ _ c H). lia. Qed.
Lemma repeat_nil : forall k i f, (forall j, f j = []) -> repeat_at k i f = [].
Proof. induction k as [| k IH]; intros i f H; cbn [repeat_at]; [reflexivity |]. rewrite H, IH by exact H. reflexivity. Qed.
Lemma leaves_off : (forall s o, offsets (leaves s o false) = []) /\ (forall fs o, offsets (leavesF fs o false) = []).
Proof.
  apply (styp_both (fun s => forall o, offsets (leaves s o false) = []) (fun fs => forall o, offsets (leavesF fs o false) = [])); cbn [leaves leavesF]; intros; try reflexivity.
  - rewrite offsets_rep. apply repeat_nil. intros j. apply H.
  - cbn [andb]. apply H.
  - rewrite offsets_app, H, H0. reflexivity.
  - cbn [andb]. apply H.
Qed.
Lemma NofPtrs_arr : forall e n z, NofPtrs (SArr n e z) = NofPtrs e * n.
Proof. induction e; intros m y; try reflexivity. change (NofPtrs (SArr m (SArr n e size) y)) with (NofPtrs (SArr (n * m) e y)). change (NofPtrs (SArr n e size)) with (NofPtrs (SArr n e y)). rewrite !IHe. lia. Qed.
Lemma Put_base : forall e n z adr, (match e with SArr _ _ _ => False | _ => True end) -> (forall a, PutPtrOffsets e a = offsets (leaves e a true)) -> (forall a, Z.of_nat (length (PutPtrOffsets e a)) = NofPtrs e) ->
  PutPtrOffsets (SArr n e z) adr = repeat_at (Z.to_nat n) 0 (fun i => offsets (leaves e (adr + i * size_of e) true)).
Proof.
  intros e n z adr N H C. assert (X : PutPtrOffsets (SArr n e z) adr = if NofPtrs e >? 0 then repeat_at (Z.to_nat n) 0 (fun i => PutPtrOffsets e (adr + i * size_of e)) else []) by (destruct e; try reflexivity; destruct N).
  rewrite X. destruct (NofPtrs e >? 0) eqn:G; [apply repeat_ext; intros; apply H |]. symmetry. apply repeat_nil. intros j. rewrite <- H. specialize (C (adr + j * size_of e)). apply length_zero_iff_nil. lia.
Qed.
Definition put_ok (s : styp) : Prop := laid s ->
  (forall a, PutPtrOffsets s a = offsets (leaves s a true)) /\ (forall a, Z.of_nat (length (PutPtrOffsets s a)) = NofPtrs s) /\
  (forall n z a, 0 <= n -> PutPtrOffsets (SArr n s z) a = repeat_at (Z.to_nat n) 0 (fun i => offsets (leaves s (a + i * size_of s) true))).
Definition putF_ok (fs : sfields) : Prop := laidF fs ->
  (forall a, PutPtrOffsetsF fs a = offsets (leavesF fs a true)) /\ (forall a, Z.of_nat (length (PutPtrOffsetsF fs a)) = NofPtrsF fs).
Lemma put_both : (forall s, put_ok s) /\ (forall fs, putF_ok fs).
Proof.
  apply (styp_both put_ok putF_ok); unfold put_ok, putF_ok.
  - intros z L. assert (A : forall a, PutPtrOffsets (SBasic z) a = offsets (leaves (SBasic z) a true)) by reflexivity. assert (B : forall a, Z.of_nat (length (PutPtrOffsets (SBasic z) a)) = NofPtrs (SBasic z)) by reflexivity. split; [exact A |]. split; [exact B |]. intros. apply Put_base; [exact I | exact A | exact B].
  - intros t z L. assert (A : forall a, PutPtrOffsets (SPtr t z) a = offsets (leaves (SPtr t z) a true)) by (destruct t; reflexivity). assert (B : forall a, Z.of_nat (length (PutPtrOffsets (SPtr t z) a)) = NofPtrs (SPtr t z)) by (destruct t; reflexivity). split; [exact A |]. split; [exact B |]. intros. apply Put_base; [exact I | exact A | exact B].
  - intros z L. assert (A : forall a, PutPtrOffsets (SProc z) a = offsets (leaves (SProc z) a true)) by reflexivity. assert (B : forall a, Z.of_nat (length (PutPtrOffsets (SProc z) a)) = NofPtrs (SProc z)) by reflexivity. split; [exact A |]. split; [exact B |]. intros. apply Put_base; [exact I | exact A | exact B].
  - intros n e IH z L. cbn [LayProps.laid] in L. destruct L as (N & L & E). destruct (IH L) as (A & B & C). split; [| split].
    + intros a. rewrite C by lia. cbn [leaves]. rewrite offsets_rep. reflexivity.
    + intros a. rewrite C by lia. rewrite NofPtrs_arr. rewrite (repeat_len _ _ _ (NofPtrs e)); [rewrite Z2Nat.id by lia; reflexivity |]. intros j. rewrite <- A. apply B.
    + intros m y a M. change (PutPtrOffsets (SArr m (SArr n e z) y) a) with (PutPtrOffsets (SArr (n * m) e y) a). rewrite C by nia. cbn [size_of]. rewrite E.
      transitivity (repeat_at (Z.to_nat m) 0 (fun i => repeat_at (Z.to_nat n) 0 (fun j => offsets (leaves e (a + (i * Z.of_nat (Z.to_nat n) + j) * size_of e) true)))).
      * rewrite (repeat_mul (Z.to_nat m) 0 (Z.to_nat n) (fun k => offsets (leaves e (a + k * size_of e) true))). rewrite <- Z2Nat.inj_mul by lia. rewrite (Z.mul_comm n m). rewrite Z.mul_0_l. reflexivity.
      * apply repeat_ext. intros i. cbn [leaves]. rewrite offsets_rep. apply repeat_ext. intros j. rewrite Z2Nat.id by lia. f_equal. f_equal. lia.
  - intros t fs IH size align gap L. cbn [LayProps.laid LayProps.laidF] in L. destruct L as (L & _). destruct (IH L) as (A & B).
    assert (A' : forall a, PutPtrOffsets (SRec t fs size align gap) a = offsets (leaves (SRec t fs size align gap) a true)). { intros a. cbn [leaves andb]. destruct t; [exact (A a) |]. rewrite (proj2 leaves_off). reflexivity. }
    assert (B' : forall a, Z.of_nat (length (PutPtrOffsets (SRec t fs size align gap) a)) = NofPtrs (SRec t fs size align gap)) by (intros a; destruct t; [exact (B a) | reflexivity]).
    split; [exact A' |]. split; [exact B' |]. intros. apply Put_base; [exact I | exact A' | exact B'].
  - intros _. split; reflexivity.
  - intros fs IH v t IHt adr L. cbn [LayProps.laid LayProps.laidF] in L. destruct L as (L & T & _). destruct (IH L) as (A & B), (IHt T) as (A' & B' & _). split.
    + intros a. cbn [leavesF]. rewrite offsets_app, <- A, <- A'. reflexivity.
    + intros a. change (PutPtrOffsetsF (SAdd fs v t adr) a) with (PutPtrOffsetsF fs a ++ PutPtrOffsets t (a + adr)). change (NofPtrsF (SAdd fs v t adr)) with (NofPtrsF fs + NofPtrs t). rewrite app_length, Nat2Z.inj_add, B, B'. reflexivity.
  - intros t b IH size align gap L. cbn [LayProps.laid LayProps.laidF] in L. destruct L as (L & _). destruct (IH L) as (A & B). split.
    + intros a. cbn [leavesF andb]. destruct t; [exact (A a) |]. rewrite (proj2 leaves_off). reflexivity.
    + intros a. destruct t; [exact (B a) | reflexivity].
Qed.
(** The table lists exactly the offsets of the traced pointers, and the descriptor's count is their number. *)
Theorem C43_pointers : forall t s, wf t -> TypSize Alignment AddressSize t = Ok s ->
  PutPtrOffsets s 0 = offsets (leaves s 0 true) /\ NofPtrs s = Z.of_nat (length (offsets (leaves s 0 true))) /\ TDesc AddressSize s = offsets (leaves s 0 true) ++ [- (NofPtrs s + 1) * AddressSize].
Proof.
  intros t s W H. pose proof (TypSize_laid Alignment AddressSize HA HP t W s H) as L. destruct (proj1 put_both s L) as (A & B & _). split; [apply A |]. split; [rewrite <- (B 0), A; reflexivity |]. unfold TDesc. rewrite (B 0), A. reflexivity.
Qed.
(** They are ascending, within the type, and aligned like addresses. *)
Fixpoint rising (lo : Z) (l : list Z) (hi : Z) : Prop := match l with [] => lo <= hi | o :: l => lo <= o /\ rising (o + AddressSize) l hi end.
Lemma rising_weaken : forall l lo lo' hi, lo' <= lo -> rising lo l hi -> rising lo' l hi.
Proof. induction l; cbn [rising]; intros lo lo' hi L H; [lia |]. destruct H. split; [lia | assumption]. Qed.
Lemma traced_size : (forall s, laid s -> forall o tr, Forall (fun p => snd p = true -> snd (fst p) = AddressSize) (leaves s o tr)) /\ (forall fs, laidF fs -> forall o tr, Forall (fun p => snd p = true -> snd (fst p) = AddressSize) (leavesF fs o tr)).
Proof.
  apply (styp_both (fun s => laid s -> forall o tr, Forall (fun p => snd p = true -> snd (fst p) = AddressSize) (leaves s o tr)) (fun fs => laidF fs -> forall o tr, Forall (fun p => snd p = true -> snd (fst p) = AddressSize) (leavesF fs o tr))); cbn [LayProps.laid LayProps.laidF leaves leavesF]; intros.
  - constructor; [cbn; discriminate | constructor].
  - constructor; [cbn; auto | constructor].
  - constructor; [cbn; discriminate | constructor].
  - apply rep_forall. intros. apply H. apply H0.
  - apply H. apply H0.
  - constructor.
  - apply Forall_app. split; [apply H, H1 | apply H0, H1].
  - apply H. apply H0.
Qed.
Lemma chain_rising : forall l lo hi, chain lo l hi -> Forall (fun p => fst (fst p) mod SA (snd (fst p)) = 0) l -> Forall (fun p => snd p = true -> snd (fst p) = AddressSize) l -> rising lo (offsets l) hi /\ Forall (fun o => o mod SA AddressSize = 0) (offsets l).
Proof.
  unfold offsets. induction l as [| [[o z] b] l IH]; intros lo hi C AL TS; cbn [chain filter map rising snd fst] in *; [split; [exact C | constructor] |]. apply Forall_cons_iff in AL as [A1 AL]. apply Forall_cons_iff in TS as [T1 TS]. cbn [fst snd] in *. destruct C as (C1 & C2 & C3). destruct (IH (o + z) hi C3 AL TS) as (R & F).
  destruct b; cbn [map rising fst]; [rewrite (T1 eq_refl) in *; split; [split; [exact C1 | exact R] | constructor; [exact A1 | exact F]] | split; [eapply rising_weaken; [| exact R]; lia | exact F]].
Qed.
Theorem C43_ascending : forall t s, wf t -> TypSize Alignment AddressSize t = Ok s -> rising 0 (PutPtrOffsets s 0) (size_of s) /\ Forall (fun o => o mod SA AddressSize = 0) (PutPtrOffsets s 0).
Proof.
  intros t s W H. pose proof (TypSize_laid Alignment AddressSize HA HP t W s H) as L. rewrite (proj1 (C43_pointers t s W H)). destruct (C42_layout Alignment AddressSize HA HP t s W H 0 true) as (C & AL & _). specialize (AL (Z.mod_0_l (BA s) ltac:(destruct (laid_sound Alignment AddressSize HA HP s L) as (P & _); apply pow_pos in P; lia))).
  apply (chain_rising _ _ _ C AL (proj1 traced_size s L 0 true)).
Qed.
End C.

(** The part of C43 that fails: RECORD a*: CHAR; p: INT64; b*: INT32 END in a client's view: the padding does not preserve the alignment, since the gap is measured from the aligned end
    of a.  The compiler assumes 24 bytes aligned to 8, the C struct has 20 bytes aligned to 4; the elements of an array or the fields behind such a field are not where the compiler assumes them. *)
Definition bad : fields := FAdd (FAdd (FAdd FNone true (TBasic 1)) false (TBasic 8)) true (TBasic 4).
Theorem C43_hidden_refuted : exists s, TypSize 8 8 (TRec true bad) = Ok s /\ size_of s = 24 /\ csize 8 (declare 8 s) = 20 /\ calign 8 (declare 8 s) = 4.
Proof. eexists. split; [vm_compute; reflexivity |]. vm_compute. auto. Qed.
Theorem C43_field_refuted : exists sf size align gap, TypSize 8 8 (TRec true (FAdd (FAdd FNone true (TRec true bad)) true (TPtr true))) = Ok (SRec true sf size align gap) /\
  visible sf = [0; 24] /\ PutPtrOffsets (SRec true sf size align gap) 0 = [24] /\ moffsets 8 (members (declare 8 (SRec true sf size align gap))) = [0; 24] /\
  exists sf' size' align' gap', TypSize 8 8 (TRec true (FAdd (FAdd FNone true (TRec true bad)) true (TArr 3 (TBasic 4)))) = Ok (SRec true sf' size' align' gap') /\
  visible sf' = [0; 24] /\ moffsets 8 (members (declare 8 (SRec true sf' size' align' gap'))) = [0; 20].
Proof. do 4 eexists. split; [vm_compute; reflexivity |]. do 3 (split; [vm_compute; reflexivity |]). do 4 eexists. split; [vm_compute; reflexivity |]. split; vm_compute; reflexivity. Qed.
(** RECORD a*: CHAR; p: POINTER; b*: CHAR; q: POINTER END extended by c*: CHAR; d: ARRAY 2, 2 OF POINTER, seen by a client. *)
Definition ex_hidden : fields := FAdd (FAdd (FExt true (FAdd (FAdd (FAdd (FAdd FNone true (TBasic 1)) false (TPtr true)) true (TBasic 1)) false (TPtr true))) true (TBasic 1)) false (TArr 2 (TArr 2 (TPtr true))).
Example C43_example : exists sf size align gap, TypSize 8 8 (TRec true ex_hidden) = Ok (SRec true sf size align gap) /\ wfF ex_hidden /\ fitF 8 sf /\ fit 8 (SRec true sf size align gap) /\ visible sf = [0; 16; 32] /\ size = 72 /\
  moffsets 8 (members (declare 8 (SRec true sf size align gap))) = [0; 16; 32] /\ csize 8 (declare 8 (SRec true sf size align gap)) = 72 /\ TDesc 8 (SRec true sf size align gap) = [8; 24; 40; 48; 56; 64; -56].
Proof.
  do 4 eexists. split; [vm_compute; reflexivity |]. split; [cbn; unfold pow; lia |]. split; [cbn; intuition discriminate |]. split; [| vm_compute; repeat split]. cbn [fit fitF]. split; [right; cbn; intuition (try discriminate; auto) | cbn; intuition discriminate].
Qed.

Print Assumptions C43_offsets.
Print Assumptions C43_size.
Print Assumptions C43_own.
Print Assumptions C43_pointers.
Print Assumptions C43_ascending.
Print Assumptions C43_hidden_refuted.
