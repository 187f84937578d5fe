(** Record layout (C42) and the layout of the generated C structs and pointer tables (C43). *)
From Verif Require Import Base OpsProps LayModel.

Scheme typ_mut := Induction for typ Sort Prop with fields_mut := Induction for fields Sort Prop.
Scheme styp_mut := Induction for styp Sort Prop with sfields_mut := Induction for sfields Sort Prop.

Section LayProps.
Variables (Alignment AddressSize : Z).
Hypothesis HA : Alignment = 4 \/ Alignment = 8.
Hypothesis HP : AddressSize = 4 \/ AddressSize = 8.
Notation BA := (BaseAlignment Alignment).
Notation SA := (SizeAlignment Alignment).
Notation decl := (declare Alignment).
Notation FL := (FieldList Alignment).

(** Basic types have 1, 2, 4 or 8 bytes; arrays are not empty. *)
Definition pow (a : Z) : Prop := a = 1 \/ a = 2 \/ a = 4 \/ a = 8.
Fixpoint wf (t : typ) : Prop :=
  match t with TBasic z => pow z | TPtr _ => True | TProc => True | TArr n e => 1 <= n /\ wf e | TRec _ fs => wfF fs end
with wfF (fs : fields) : Prop :=
  match fs with FNone => True | FAdd fs _ t => wfF fs /\ wf t | FExt _ b => wfF b end.

(** * Sound layouts *)
Definition end_of (fs : sfields) : Z :=
  match fs with SNone => 0 | SAdd _ _ t adr => adr + size_of t | SExt _ _ size _ gap => size - gap end.
Fixpoint base_of (fs : sfields) : Z :=
  match fs with SNone => 1 | SAdd fs _ t _ => Z.max (base_of fs) (BA t) | SExt _ _ _ align _ => align end.
Definition finished (fs : sfields) (size align gap : Z) : Prop :=
  align = base_of fs /\ size = round_up (Z.max 1 (end_of fs)) align /\ size - gap = end_of fs.
Fixpoint laid (s : styp) : Prop :=
  match s with
  | SBasic z => pow z
  | SPtr _ z => z = AddressSize
  | SProc z => z = AddressSize
  | SArr n e z => 1 <= n /\ laid e /\ z = n * size_of e
  | SRec _ fs size align gap => laidF fs /\ finished fs size align gap
  end
with laidF (fs : sfields) : Prop :=
  match fs with
  | SNone => True
  | SAdd fs _ t adr => laidF fs /\ laid t /\ adr = round_up (end_of fs) (BA t)
  | SExt _ b size align gap => laidF b /\ finished b size align gap
  end.

Lemma pow_SA : forall z, pow z -> pow (SA z) /\ SA z <= Alignment /\ SA z = Z.min z Alignment /\ z mod SA z = 0 /\ SA z <= z.
Proof. intros z [-> | [-> | [-> | ->]]]; destruct HA as [-> | ->]; cbn; unfold pow; lia. Qed.
Lemma Align_up : forall x a, pow a -> Align x a = round_up x a.
Proof. intros x a [-> | [-> | [-> | ->]]]; unfold Align, round_up; cbn [Z.eqb Pos.eqb]; rewrite ?Z.mod_1_r; lia. Qed.
Lemma up : forall x a, pow a -> x <= round_up x a < x + a /\ round_up x a mod a = 0.
Proof. intros x a [-> | [-> | [-> | ->]]]; unfold round_up; lia. Qed.
Lemma pow_mod : forall a b x, pow a -> pow b -> a <= b -> x mod b = 0 -> x mod a = 0.
Proof. intros a b x [-> | [-> | [-> | ->]]] [-> | [-> | [-> | ->]]] L H; lia. Qed.
Lemma pow_max : forall a b, pow a -> pow b -> pow (Z.max a b).
Proof. unfold pow. intros. lia. Qed.
Lemma pow_pos : forall a, pow a -> 1 <= a.
Proof. unfold pow. intros. lia. Qed.
Lemma mod_add0 : forall a x y, 1 <= a -> x mod a = 0 -> y mod a = 0 -> (x + y) mod a = 0.
Proof. intros a x y P H K. rewrite Z.add_mod, H, K by lia. apply Z.mod_0_l. lia. Qed.
Lemma mod_mul0 : forall a x n, 1 <= a -> x mod a = 0 -> (n * x) mod a = 0.
Proof. intros a x n P H. rewrite Z.mul_mod, H, Z.mul_0_r by lia. apply Z.mod_0_l. lia. Qed.
Lemma pow_addr : pow AddressSize.
Proof. unfold pow. lia. Qed.

(** Alignments are powers of two up to the largest; sizes are positive multiples. *)
Definition sound (s : styp) : Prop := pow (BA s) /\ BA s <= Alignment /\ size_of s mod BA s = 0 /\ BA s <= size_of s.
Definition soundF (fs : sfields) : Prop := pow (base_of fs) /\ base_of fs <= Alignment /\ 0 <= end_of fs /\ (end_of fs = 0 -> base_of fs = 1) /\ base_of fs <= Z.max 1 (end_of fs).
Lemma finished_sound : forall fs size align gap, soundF fs -> finished fs size align gap -> pow align /\ align <= Alignment /\ size mod align = 0 /\ align <= size /\ end_of fs <= size.
Proof.
  intros fs size align gap (P & L & E & Z0 & M) (-> & -> & G). pose proof (up (Z.max 1 (end_of fs)) _ P). split; [exact P |]. split; [exact L |]. split; [tauto |]. lia.
Qed.
Lemma laid_sound : forall s, laid s -> sound s.
Proof.
  apply (styp_mut (fun s => laid s -> sound s) (fun fs => laidF fs -> soundF fs)); cbn [laid laidF]; intros.
  - unfold sound. cbn [BaseAlignment size_of]. pose proof (pow_SA size H). tauto.
  - subst size. unfold sound. cbn [BaseAlignment size_of]. pose proof (pow_SA _ pow_addr). tauto.
  - subst size. unfold sound. cbn [BaseAlignment size_of]. pose proof (pow_SA _ pow_addr). tauto.
  - destruct H0 as (N & L & ->). destruct (H L) as (P & A & M & B). unfold sound. cbn [BaseAlignment size_of]. split; [exact P |]. split; [exact A |].
    split; [rewrite Z.mul_mod, M, Z.mul_0_r by (unfold pow in P; lia); apply Z.mod_0_l; unfold pow in P; lia |]. apply pow_pos in P. nia.
  - destruct H0 as (L & F). pose proof (finished_sound _ _ _ _ (H L) F). unfold sound. cbn [BaseAlignment size_of]. tauto.
  - unfold soundF, pow. cbn [base_of end_of]. lia.
  - destruct H1 as (L & T & ->). destruct (H L) as (P & A & E & Z0 & M), (H0 T) as (P' & A' & M' & B'). unfold soundF. cbn [base_of end_of]. pose proof (up (end_of fs) _ P') as U. apply pow_pos in P as P1. apply pow_pos in P' as P1'.
    split; [apply pow_max; assumption |]. split; [lia |]. split; [lia |]. split; lia.
  - destruct H0 as (L & F). pose proof (H L) as S. destruct F as (-> & -> & G). destruct S as (P & A & E & Z0 & M). unfold soundF. cbn [base_of end_of]. rewrite G. repeat (split; [assumption |]). assumption.
Qed.
Lemma laidF_sound : forall fs, laidF fs -> soundF fs.
Proof.
  induction fs; cbn [laidF]; intros H.
  - unfold soundF, pow. cbn [base_of end_of]. lia.
  - destruct H as (L & T & ->). destruct (IHfs L) as (P & A & E & Z0 & M), (laid_sound t T) as (P' & A' & M' & B'). unfold soundF. cbn [base_of end_of]. pose proof (up (end_of fs) _ P') as U. apply pow_pos in P as P1. apply pow_pos in P' as P1'.
    split; [apply pow_max; assumption |]. split; [lia |]. split; [lia |]. split; lia.
  - destruct H as (L & F). pose proof (IHfs L) as S. destruct F as (-> & -> & G). destruct S as (P & A & E & Z0 & M). unfold soundF. cbn [base_of end_of]. rewrite G. repeat (split; [assumption |]). assumption.
Qed.

(** * The compiler's layout is sound *)
Lemma chk_inv : forall x r, chk 32 x = Ok r -> r = x.
Proof. intros x r H. unfold chk in H. destruct (in_intb 32 x); congruence. Qed.
Lemma finish_finished : forall fs size align gap, soundF fs -> finish (end_of fs) (base_of fs) = Ok (size, align, gap) -> finished fs size align gap.
Proof.
  intros fs size align gap (P & A & E & Z0 & M) H. unfold finish in H. apply bind_inv in H as (off & C & H). apply chk_inv in C. injection H as <- <- <-.
  rewrite Align_up in C by exact P. assert (X : off = round_up (Z.max 1 (end_of fs)) (base_of fs)) by (rewrite C; f_equal; destruct (end_of fs =? 0) eqn:Q; lia).
  pose proof (up (Z.max 1 (end_of fs)) _ P) as U. rewrite <- X in U. apply pow_pos in P as P1. split; [reflexivity |]. split; [exact X |].
  assert (0 <= off - end_of fs <= 8) by lia. unfold wrap_s. change (2 ^ 16) with 65536. change (2 ^ (16 - 1)) with 32768. lia.
Qed.
Lemma TypSize_laid : forall t, wf t -> forall s, TypSize Alignment AddressSize t = Ok s -> laid s.
Proof.
  apply (typ_mut (fun t => wf t -> forall s, TypSize Alignment AddressSize t = Ok s -> laid s)
    (fun fs => wfF fs -> forall s off base, TypFields Alignment AddressSize fs = Ok (s, off, base) -> laidF s /\ off = end_of s /\ base = base_of s)); cbn [wf wfF TypSize TypFields]; intros.
  - injection H0 as <-. exact H.
  - injection H0 as <-. reflexivity.
  - injection H0 as <-. reflexivity.
  - destruct H0 as (N & W). apply bind_inv in H1 as (e & E & H1). apply bind_inv in H1 as (z & C & H1). injection H1 as <-. apply chk_inv in C as ->. cbn [laid]. split; [exact N |]. split; [apply H; assumption | reflexivity].
  - apply bind_inv in H1 as (((f & off0) & base) & F & H1). destruct (H H0 _ _ _ F) as (L & -> & ->). apply bind_inv in H1 as (((size & align) & gap) & Q & H1). injection H1 as <-. cbn [laid]. split; [exact L |]. apply finish_finished; [apply laidF_sound, L | exact Q].
  - injection H0 as <- <- <-. cbn. auto.
  - destruct H1 as (W & W'). apply bind_inv in H2 as (((f & off0) & base1) & F & H2). destruct (H W _ _ _ F) as (L & -> & ->). apply bind_inv in H2 as (st & T & H2). specialize (H0 W' _ T).
    apply bind_inv in H2 as (adr & A & H2). apply chk_inv in A. apply bind_inv in H2 as (o & B & H2). apply chk_inv in B. injection H2 as <- <- <-. rewrite Align_up in A by (apply laid_sound, H0). cbn [laidF end_of base_of]. split; [split; [exact L |]; split; [exact H0 | exact A] |]. split; [exact B |]. destruct (BA st >? base_of f) eqn:G; lia.
  - apply bind_inv in H1 as (((f & off0) & base1) & F & H1). destruct (H H0 _ _ _ F) as (L & -> & ->). apply bind_inv in H1 as (((size & align) & gap) & Q & H1). injection H1 as <- <- <-. cbn [laidF end_of base_of]. split; [split; [exact L |]; apply finish_finished; [apply laidF_sound, L | exact Q] |]. auto.
Qed.

(** * C42 *)
(** The scalar variables a type consists of, at an offset: offset, size, and whether the collector must know it (a traced pointer, not inside an untraced record). *)
Fixpoint rep {A} (k : nat) (i : Z) (f : Z -> list A) : list A := match k with O => [] | S k => f i ++ rep k (i + 1) f end.
Fixpoint leaves (s : styp) (o : Z) (tr : bool) : list (Z * Z * bool) :=
  match s with
  | SBasic z => [(o, z, false)]
  | SPtr t z => [(o, z, tr && t)]
  | SProc z => [(o, z, false)]
  | SArr n e _ => rep (Z.to_nat n) 0 (fun i => leaves e (o + i * size_of e) tr)
  | SRec t fs _ _ _ => leavesF fs o (tr && t)
  end
with leavesF (fs : sfields) (o : Z) (tr : bool) : list (Z * Z * bool) :=
  match fs with
  | SNone => []
  | SAdd fs _ t adr => leavesF fs o tr ++ leaves t (o + adr) tr
  | SExt t b _ _ _ => leavesF b o (tr && t)
  end.
(** One after the other, without overlap, from lo to hi. *)
Fixpoint chain (lo : Z) (l : list (Z * Z * bool)) (hi : Z) : Prop :=
  match l with
  | [] => lo <= hi
  | (o, z, _) :: l => lo <= o /\ 0 < z /\ chain (o + z) l hi
  end.
Lemma chain_le : forall l lo hi, chain lo l hi -> lo <= hi.
Proof. induction l as [| [[o z] t] l IH]; cbn [chain]; intros lo hi H; [exact H |]. destruct H as (A & B & C). apply IH in C. lia. Qed.
Lemma chain_app : forall a b lo mid hi, chain lo a mid -> chain mid b hi -> chain lo (a ++ b) hi.
Proof.
  induction a as [| [[o z] t] a IH]; cbn [chain app]; intros b lo mid hi H K.
  - destruct b as [| [[o z] t] b]; cbn [chain] in *; [lia |]. destruct K as (K1 & K2 & K3). split; [lia |]. split; assumption.
  - destruct H as (H1 & H2 & H3). split; [exact H1 |]. split; [exact H2 |]. eapply IH; eassumption.
Qed.
Lemma chain_weaken : forall l lo lo' hi hi', lo' <= lo -> hi <= hi' -> chain lo l hi -> chain lo' l hi'.
Proof. induction l as [| [[o z] t] l IH]; cbn [chain]; intros lo lo' hi hi' A B H; [lia |]. destruct H as (H1 & H2 & H3). split; [lia |]. split; [exact H2 |]. eapply IH; [| | exact H3]; lia. Qed.
Lemma chain_rep : forall k i f o z, (forall j, chain (o + j * z) (f j) (o + (j + 1) * z)) -> chain (o + i * z) (rep k i f) (o + (i + Z.of_nat k) * z).
Proof.
  induction k as [| k IH]; intros i f o z H; cbn [rep].
  - cbn [chain]. replace (i + Z.of_nat 0) with i by lia. lia.
  - eapply chain_app; [apply H |]. replace (i + Z.of_nat (S k)) with (i + 1 + Z.of_nat k) by lia. apply IH, H.
Qed.
Lemma leaves_chain : forall s, laid s -> forall o tr, chain o (leaves s o tr) (o + size_of s).
Proof.
  apply (styp_mut (fun s => laid s -> forall o tr, chain o (leaves s o tr) (o + size_of s)) (fun fs => laidF fs -> forall o tr, chain o (leavesF fs o tr) (o + end_of fs))); cbn [laid laidF leaves leavesF size_of]; intros.
  - cbn [chain]. apply pow_pos in H. lia.
  - cbn [chain]. subst. pose proof (pow_pos _ pow_addr). lia.
  - cbn [chain]. subst. pose proof (pow_pos _ pow_addr). lia.
  - destruct H0 as (N & L & ->). pose proof (chain_rep (Z.to_nat n) 0 (fun i => leaves elem (o + i * size_of elem) tr) o (size_of elem)) as C. cbv beta in C. rewrite Z2Nat.id in C by lia.
    replace (o + 0 * size_of elem) with o in C by lia. replace (o + (0 + n) * size_of elem) with (o + n * size_of elem) in C by lia. apply C. intros j. replace (o + (j + 1) * size_of elem) with (o + j * size_of elem + size_of elem) by lia. apply H, L.
  - destruct H0 as (L & F). pose proof (finished_sound _ _ _ _ (laidF_sound _ L) F). eapply chain_weaken; [| | apply H, L]; lia.
  - cbn. lia.
  - destruct H1 as (L & T & ->). cbn [end_of]. pose proof (laid_sound t T) as (P & _). pose proof (up (end_of fs) _ P). eapply chain_app; [apply H, L |]. eapply chain_weaken; [| | apply (H0 T)]; lia.
  - destruct H0 as (L & F). cbn [end_of]. destruct F as (_ & _ & ->). apply H, L.
Qed.
Lemma rep_forall : forall {A} (P : A -> Prop) k i f, (forall j, i <= j -> Forall P (f j)) -> Forall P (rep k i f).
Proof. intros A P. induction k as [| k IH]; intros i f H; cbn [rep]; [constructor |]. apply Forall_app. split; [apply H; lia | apply IH; intros; apply H; lia]. Qed.
Lemma leaves_aligned : forall s, laid s -> forall o tr, o mod BA s = 0 -> Forall (fun p => fst (fst p) mod SA (snd (fst p)) = 0) (leaves s o tr).
Proof.
  apply (styp_mut (fun s => laid s -> forall o tr, o mod BA s = 0 -> Forall (fun p => fst (fst p) mod SA (snd (fst p)) = 0) (leaves s o tr))
    (fun fs => laidF fs -> forall o tr A, pow A -> base_of fs <= A -> o mod A = 0 -> Forall (fun p => fst (fst p) mod SA (snd (fst p)) = 0) (leavesF fs o tr))); cbn [laid laidF leaves leavesF BaseAlignment size_of]; intros.
  - constructor; [exact H0 | constructor].
  - constructor; [exact H0 | constructor].
  - constructor; [exact H0 | constructor].
  - destruct H0 as (N & L & ->). apply rep_forall. intros j _. apply H; [exact L |]. destruct (laid_sound _ L) as (P & _ & M & _). apply pow_pos in P. apply mod_add0; [exact P | exact H1 | apply mod_mul0; assumption].
  - destruct H0 as (L & F). destruct (laidF_sound _ L) as (P & _). destruct F as (-> & _). eapply H; [exact L | exact P | lia | exact H1].
  - constructor.
  - destruct H1 as (L & T & ->). cbn [base_of] in H3. apply Forall_app. split; [eapply H; [exact L | exact H2 | clear - H3; lia | exact H4] |]. destruct (laid_sound _ T) as (P & _). apply H0; [exact T |]. pose proof (up (end_of fs) _ P) as (_ & U). assert (B : BA t <= A) by (clear - H3; lia). pose proof (pow_mod _ _ _ P H2 B H4) as M. apply pow_pos in P. apply mod_add0; assumption.
  - destruct H0 as (L & F). cbn [base_of] in H2. destruct F as (-> & _). eapply H; [exact L | exact H1 | lia | exact H3].
Qed.
(** Every scalar variable in a type lies within its size, no two overlap, and each is aligned when the whole is.  In particular for records in arrays in records. *)
Theorem C42_layout : forall t s, wf t -> TypSize Alignment AddressSize t = Ok s -> forall o tr,
  chain o (leaves s o tr) (o + size_of s) /\ (o mod BA s = 0 -> Forall (fun p => fst (fst p) mod SA (snd (fst p)) = 0) (leaves s o tr)) /\ size_of s mod BA s = 0 /\ 0 < size_of s.
Proof.
  intros t s W H o tr. pose proof (TypSize_laid t W s H) as L. split; [apply leaves_chain, L |]. split; [apply leaves_aligned, L |]. destruct (laid_sound s L) as (P & _ & M & B). split; [exact M |]. apply pow_pos in P. lia.
Qed.
(** The fields of a record, with address, type: in order, of all extension levels. *)
Fixpoint flds (fs : sfields) : list (Z * styp) :=
  match fs with SNone => [] | SAdd fs _ t adr => flds fs ++ [(adr, t)] | SExt _ b _ _ _ => flds b end.
Fixpoint ascending (lo : Z) (l : list (Z * styp)) (hi : Z) : Prop :=
  match l with [] => lo <= hi | (adr, t) :: l => lo <= adr /\ adr mod BA t = 0 /\ 0 < size_of t /\ ascending (adr + size_of t) l hi end.
Lemma asc_app : forall a b lo mid hi, ascending lo a mid -> ascending mid b hi -> ascending lo (a ++ b) hi.
Proof.
  induction a as [| [o t] a IH]; cbn [ascending app]; intros b lo mid hi H K.
  - destruct b as [| [o t] b]; cbn [ascending] in *; [lia |]. destruct K as (K1 & K2 & K3). split; [lia |]. split; assumption.
  - destruct H as (H1 & H2 & H3 & H4). split; [exact H1 |]. split; [exact H2 |]. split; [exact H3 |]. eapply IH; eassumption.
Qed.
Lemma flds_asc : forall fs, laidF fs -> ascending 0 (flds fs) (end_of fs).
Proof.
  induction fs; cbn [laidF flds]; intros H.
  - cbn. lia.
  - destruct H as (L & T & ->). eapply asc_app; [apply IHfs, L |]. destruct (laid_sound _ T) as (P & _ & _ & B). pose proof (up (end_of fs) _ P) as U. cbn [ascending end_of]. apply pow_pos in P. lia.
  - destruct H as (L & F). cbn [end_of]. destruct F as (_ & _ & ->). apply IHfs, L.
Qed.
Theorem C42_record : forall tr fs s, wfF fs -> TypSize Alignment AddressSize (TRec tr fs) = Ok s ->
  exists sf size align gap, s = SRec tr sf size align gap /\ ascending 0 (flds sf) size /\ size mod align = 0 /\ Forall (fun p => BA (snd p) <= align) (flds sf).
Proof.
  intros tr fs s W H. pose proof (TypSize_laid (TRec tr fs) W s H) as L. cbn [TypSize] in H. apply bind_inv in H as (((sf & off) & base) & _ & H). apply bind_inv in H as (((size & align) & gap) & _ & H). injection H as <-. exists sf, size, align, gap. split; [reflexivity |].
  cbn [laid] in L. destruct L as (LF & F). pose proof (finished_sound _ _ _ _ (laidF_sound _ LF) F) as (P & _ & M & _ & E). split.
  - rewrite <- (app_nil_r (flds sf)). eapply asc_app; [apply flds_asc, LF | exact E].
  - split; [exact M |]. destruct F as (-> & _). clear - LF HA HP. induction sf; cbn [flds laidF base_of] in *.
    + constructor.
    + destruct LF as (L & T & _). apply Forall_app. split; [eapply Forall_impl; [| apply IHsf, L]; cbn; intros; lia |]. constructor; [cbn; lia | constructor].
    + destruct LF as (L & F). destruct F as (-> & _). apply IHsf, L.
Qed.
(** An extension has the fields of its base at the offsets they have in the base, and its own fields behind them. *)
Fixpoint plus (fs : fields) (l : list (bool * typ)) : fields := match l with [] => fs | (v, t) :: l => plus (FAdd fs v t) l end.
Lemma plus_flds : forall l fs s off base, TypFields Alignment AddressSize (plus fs l) = Ok (s, off, base) -> exists s0 off0 base0 r, TypFields Alignment AddressSize fs = Ok (s0, off0, base0) /\ flds s = flds s0 ++ r.
Proof.
  induction l as [| [v t] l IH]; intros fs s off base H; cbn [plus] in H; [exists s, off, base, []; rewrite app_nil_r; auto |]. destruct (IH _ _ _ _ H) as (s0 & off0 & base0 & r & E & F). cbn [TypFields] in E.
  apply bind_inv in E as (((f & o) & b) & E1 & E). apply bind_inv in E as (st & E2 & E). apply bind_inv in E as (adr & E3 & E). apply bind_inv in E as (o2 & E4 & E). injection E as <- <- <-. exists f, o, b, ([(adr, st)] ++ r). split; [exact E1 |]. rewrite F. cbn [flds]. rewrite app_assoc. reflexivity.
Qed.
Lemma TypSize_rec : forall tr fs, TypSize Alignment AddressSize (TRec tr fs) = let* r := TypFields Alignment AddressSize fs in let '(fs, off0, base) := r in let* q := finish off0 base in let '(size, align, gap) := q in Ok (SRec tr fs size align gap).
Proof. reflexivity. Qed.
Lemma TypFields_ext : forall tr fs, TypFields Alignment AddressSize (FExt tr fs) = let* r := TypFields Alignment AddressSize fs in let '(fs, off0, base) := r in let* q := finish off0 base in let '(size, align, gap) := q in Ok (SExt tr fs size align gap, size - gap, align).
Proof. reflexivity. Qed.
Theorem C42_extension : forall tr tr' trb b l s, wfF (plus (FExt trb b) l) -> TypSize Alignment AddressSize (TRec tr (plus (FExt trb b) l)) = Ok s ->
  exists sf size align gap sb bsize balign bgap r, s = SRec tr sf size align gap /\ TypSize Alignment AddressSize (TRec tr' b) = Ok (SRec tr' sb bsize balign bgap) /\ flds sf = flds sb ++ r /\ ascending (end_of sb) r size /\ (forall p, In p (flds sb) -> fst p + size_of (snd p) <= bsize) /\ (align mod balign = 0).
Proof.
  intros tr tr' trb b l s W H. pose proof (C42_record tr _ s W H) as (sf & size & align & gap & -> & ASC & _). pose proof (TypSize_laid (TRec tr (plus (FExt trb b) l)) W _ H) as LS. rewrite TypSize_rec in H. apply bind_inv in H as (((sf' & off) & base) & F & H). apply bind_inv in H as (((size' & align') & gap') & _ & H). injection H as -> -> -> ->.
  destruct (plus_flds l _ _ _ _ F) as (s0 & off0 & base0 & r & E & R). rewrite TypFields_ext in E. apply bind_inv in E as (((sb & bo) & bb) & E1 & E). apply bind_inv in E as (((bsize & balign) & bgap) & E2 & E). injection E as <- _ _. cbn [flds] in R.
  exists sf, size, align, gap, sb, bsize, balign, bgap, r. split; [reflexivity |]. assert (WB : wfF b). { clear - W. revert W. assert (forall l fs, wfF (plus fs l) -> wfF fs) as X. { induction l0 as [| [v t] l0 IH]; cbn [plus]; intros fs W; [exact W |]. apply IH in W. cbn [wfF] in W. tauto. } intros W. apply X in W. exact W. }
  assert (TB : TypSize Alignment AddressSize (TRec tr' b) = Ok (SRec tr' sb bsize balign bgap)) by (rewrite TypSize_rec, E1, bind_ok, E2, bind_ok; reflexivity). split; [exact TB |]. split; [exact R |].
  pose proof (TypSize_laid (TRec tr' b) WB _ TB) as LB. cbn [laid] in LB. destruct LB as (LB & FB). pose proof (finished_sound _ _ _ _ (laidF_sound _ LB) FB) as (PB & AB & MB & BB & EB). pose proof (flds_asc _ LB) as AB'. rewrite R in ASC.
  assert (SPL : forall a c lo mid hi, ascending lo a mid -> mid = end_of sb -> (a = [] -> lo = mid) -> (a <> [] -> exists p, last a (0, SBasic 0) = p /\ fst p + size_of (snd p) = mid) -> ascending lo (a ++ c) hi -> ascending mid c hi).
  { induction a as [| [o t] a IH]; intros c lo mid hi A M N LST K; cbn [app ascending] in *; [rewrite <- (N eq_refl); exact K |]. destruct A as (A1 & A2 & A3 & A4), K as (K1 & K2 & K3 & K4). eapply IH; [exact A4 | exact M | | | exact K4].
    - intros ->. destruct (LST ltac:(discriminate)) as (p & <- & Q). cbn in Q. exact Q.
    - intros NE. destruct (LST ltac:(discriminate)) as (p & <- & Q). exists (last a (0, SBasic 0)). split; [reflexivity |]. destruct a; [congruence | exact Q]. }
  split; [| split].
  - eapply SPL; [exact AB' | reflexivity | | | exact ASC].
    + clear - LB. induction sb; cbn [flds laidF end_of] in *; [reflexivity | intros Q; apply app_eq_nil in Q as [_ Q]; discriminate |]. destruct LB as (L & (_ & _ & G)). rewrite G. apply IHsb, L.
    + clear - LB. induction sb; cbn [flds laidF end_of] in *; [congruence | intros _; rewrite last_last; eexists; split; [reflexivity | reflexivity] |]. destruct LB as (L & (_ & _ & G)). rewrite G. apply IHsb, L.
  - intros p IN. clear - AB' IN EB. revert AB' IN. generalize (flds sb) 0. induction l as [| [o t] l IH]; intros z A IN; cbn [ascending In] in *; [tauto |]. destruct A as (A1 & A2 & A3 & A4). destruct IN as [<- | IN]; [| eapply IH; eassumption]. cbn. assert (o + size_of t <= end_of sb); [| lia].
    clear - A4. revert A4. generalize (o + size_of t). induction l as [| [o' t'] l IH]; intros x A; cbn [ascending] in *; [exact A |]. destruct A as (A1 & A2 & A3 & A4). apply IH in A4. lia.
  - cbn [laid] in LS. destruct LS as (LS & FS). destruct FS as (-> & _). destruct FB as (-> & _). assert (X : base_of sb <= base_of sf). { assert (Y : forall l fs s off base, TypFields Alignment AddressSize (plus fs l) = Ok (s, off, base) -> exists s0 o0 b0, TypFields Alignment AddressSize fs = Ok (s0, o0, b0) /\ base_of s0 <= base_of s).
      { clear. induction l as [| [v t] l IH]; intros fs s off base H; cbn [plus] in H; [exists s, off, base; split; [exact H | lia] |]. destruct (IH _ _ _ _ H) as (s0 & o0 & b0 & E & LE). cbn [TypFields] in E. apply bind_inv in E as (((f & o) & b) & E1 & E). apply bind_inv in E as (st & E2 & E). apply bind_inv in E as (adr & E3 & E). apply bind_inv in E as (o2 & E4 & E). injection E as <- <- <-. exists f, o, b. split; [exact E1 |]. cbn [base_of] in LE. lia. }
      destruct (Y _ _ _ _ _ F) as (s0 & o0 & b0 & E & LE). rewrite TypFields_ext, E1, bind_ok, E2, bind_ok in E. injection E as <- <- <-. cbn [base_of] in LE. unfold finish in E2. apply bind_inv in E2 as (q & _ & E2). injection E2 as _ -> _. exact LE. }
    destruct (laidF_sound _ LS) as (P & _). destruct (laidF_sound _ LB) as (P' & _). apply (pow_mod _ _ _ P' P X). apply Z.mod_same. apply pow_pos in P. lia.
Qed.
End LayProps.

(** The part of C42 that fails: sizes are computed in 32 bits without a check, so that a large type overflows; and the length of an array is cut to 32 bits without an error. *)
Theorem C42_size_refuted : wf (TArr 65536 (TArr 65536 (TBasic 1))) /\ TypSize 8 8 (TArr 65536 (TArr 65536 (TBasic 1))) = UB.
Proof. split; [cbn; unfold pow; lia | reflexivity]. Qed.
Theorem C42_length_refuted : array_length 8 (2 ^ 32 + 1) = Some 1 /\ array_length 8 (2 ^ 32) = Some 0 /\ array_length 8 (2 ^ 31) = Some (- 2 ^ 31).
Proof. conjs; reflexivity. Qed.
(** Lengths of 31 bits are kept. *)
Theorem C42_length : forall a n, a = 4 \/ a = 8 -> array_length a n = if (1 <=? n) && (n <? 2 ^ 31) then Some n else array_length a n.
Proof.
  intros a n A. destruct ((1 <=? n) && (n <? 2 ^ 31)) eqn:E; [| reflexivity]. change (2 ^ 31) with 2147483648 in E. apply andb_prop in E as [E1 E2]. unfold array_length.
  assert (M : 2147483647 <= 2 ^ (8 * a - 1) - 1) by (destruct A as [-> | ->]; vm_compute; congruence). replace ((n <=? 0) || (n >? 2 ^ (8 * a - 1) - 1)) with false by lia. f_equal. apply wrap_s_id; [lia |]. unfold in_int. change (2 ^ (32 - 1)) with 2147483648. lia.
Qed.
(** RECORD a: CHAR; b: INT64; c: CHAR END extended by d: INT16; e: ARRAY 3 OF POINTER: d lies in the trailing gap of the base. *)
Definition ex_base : fields := FAdd (FAdd (FAdd FNone true (TBasic 1)) true (TBasic 8)) true (TBasic 1).
Definition ex_ext : list (bool * typ) := [(true, TBasic 2); (true, TArr 3 (TPtr true))].
Example C42_example : wfF (plus (FExt true ex_base) ex_ext) /\ (exists s, TypSize 8 8 (TRec true (plus (FExt true ex_base) ex_ext)) = Ok s /\ size_of s = 48 /\
  (match s with SRec _ fs _ _ _ => map fst (flds fs) | _ => [] end) = [0; 8; 16; 18; 24] /\ map (fun p => fst (fst p)) (leaves s 0 true) = [0; 8; 16; 18; 24; 32; 40]) /\
  (exists s, TypSize 8 8 (TRec true ex_base) = Ok s /\ size_of s = 24).
Proof.
  split; [cbn; unfold pow; lia |]. split; eexists; (split; [vm_compute; reflexivity |]); vm_compute; auto.
Qed.

Print Assumptions C42_layout.
Print Assumptions C42_record.
Print Assumptions C42_extension.
Print Assumptions C42_size_refuted.
Print Assumptions C42_length.
