(** C63: the pointer offsets of an imported type are those of the module that declares it. *)
From Verif Require Import Base SymModel SymBytes SymSpec SymPtrModel.

Lemma Ok_inj : forall (A : Type) (a b : A), Ok a = Ok b -> a = b.
Proof. intros A a b E. inversion E. reflexivity. Qed.
Lemma Zlength_app : forall (A : Type) (a b : list A), Zlength (a ++ b) = Zlength a + Zlength b.
Proof. intros. rewrite !Zlength_correct, app_length. lia. Qed.
Lemma Zlength_nonneg : forall (A : Type) (a : list A), 0 <= Zlength a.
Proof. intros. rewrite Zlength_correct. lia. Qed.

Section Gen.
Variable info : ty -> tinfo.
Hypothesis lens : forall t, t_comp (info t) = 2 -> 0 <= t_n (info t).

Lemma dims_nonneg : forall fuel b n c k, 0 <= n -> dims info fuel b n = Ok (c, k) -> 0 <= k.
Proof.
  induction fuel as [| fuel IH]; intros b n c k N E; cbn [dims] in E; [discriminate |]. destruct (Z.eqb_spec (t_comp (info b)) 2) as [C |]; [| inversion E; subst; exact N].
  destruct (t_base (info b)); [| discriminate]. apply IH in E; [exact E |]. pose proof (lens b C). nia.
Qed.
(** As many offsets as counted. *)
Lemma put_count : forall fuel t n, NofPtrs info fuel t = Ok n -> forall adr, exists l, PutPtrOffsets info fuel t adr = Ok l /\ Zlength l = n.
Proof.
  induction fuel as [| fuel IH]; intros t n E adr; [discriminate |]. cbn [NofPtrs] in E. cbn [PutPtrOffsets]. cbv zeta in *.
  destruct ((t_form (info t) =? 11) && (t_flag (info t) =? 0)); [inversion E; subst; exists [adr]; auto |].
  destruct ((t_comp (info t) =? 4) && (t_flag (info t) mod 256 =? 0)).
  { assert (Q : forall fs k, count_flds (NofPtrs info fuel) fs = Ok k -> exists l, put_flds (PutPtrOffsets info fuel) fs adr = Ok l /\ Zlength l = k).
    { induction fs as [| f fs IF]; intros k C; cbn [count_flds put_flds] in *; [inversion C; exists []; auto |].
      destruct (is_hd f).
      - cbn [bind] in *. destruct (count_flds (NofPtrs info fuel) fs) as [b | | |]; try discriminate. cbn [bind] in C. inversion C; subst k. destruct (IF b eq_refl) as (l & -> & L). cbn [bind]. exists ([adr + fadr f] ++ l). split; [reflexivity |]. rewrite Zlength_app, L. reflexivity.
      - destruct (NofPtrs info fuel (ftyp f)) as [a | | |] eqn:A; try discriminate. cbn [bind] in C. destruct (count_flds (NofPtrs info fuel) fs) as [b | | |]; try discriminate. cbn [bind] in C. inversion C; subst k.
        destruct (IH _ _ A (adr + fadr f)) as (l1 & -> & L1). destruct (IF b eq_refl) as (l & -> & L). cbn [bind]. exists (l1 ++ l). split; [reflexivity |]. rewrite Zlength_app, L, L1. reflexivity. }
    destruct (t_base (info t)) as [b |].
    - destruct (NofPtrs info fuel b) as [a | | |] eqn:A; try discriminate. cbn [bind] in E. destruct (count_flds (NofPtrs info fuel) (t_flds (info t))) as [k | | |] eqn:CF; try discriminate. cbn [bind] in E. inversion E; subst n.
      destruct (IH _ _ A adr) as (l1 & -> & L1). destruct (Q _ _ CF) as (l & -> & L). cbn [bind]. exists (l1 ++ l). split; [reflexivity |]. rewrite Zlength_app, L, L1. reflexivity.
    - cbn [bind] in *. destruct (count_flds (NofPtrs info fuel) (t_flds (info t))) as [k | | |] eqn:CF; try discriminate. cbn [bind] in E. inversion E; subst n.
      destruct (Q _ _ CF) as (l & -> & L). cbn [bind app]. exists l. auto. }
  destruct (Z.eqb_spec (t_comp (info t)) 2) as [C |]; [| inversion E; subst; exists []; auto].
  destruct (t_base (info t)) as [b |]; [| discriminate]. destruct (dims info fuel b (t_n (info t))) as [[c m] | | |] eqn:D; try discriminate. cbn [bind] in *.
  destruct (NofPtrs info fuel c) as [k | | |] eqn:A; try discriminate. cbn [bind] in *. inversion E; subst n.
  pose proof (dims_nonneg _ _ _ _ _ (lens t C) D) as M.
  assert (K0 : 0 <= k) by (destruct (IH _ _ A adr) as (l & _ & <-); apply Zlength_nonneg).
  destruct (Z.gtb_spec k 0) as [P | P].
  - assert (Q : forall j i, exists l, put_elems j (PutPtrOffsets info fuel c) adr (t_size (info c)) i = Ok l /\ Zlength l = k * Z.of_nat j).
    { induction j as [| j IJ]; intros i; cbn [put_elems]; [exists []; split; [reflexivity | cbn; lia] |].
      destruct (IH _ _ A (adr + i * t_size (info c))) as (l1 & -> & L1). destruct (IJ (i + 1)) as (l & -> & L). cbn [bind]. exists (l1 ++ l). split; [reflexivity |]. rewrite Zlength_app, L, L1. lia. }
    destruct (Q (Z.to_nat m) 0) as (l & -> & L). exists l. split; [reflexivity |]. rewrite L, Z2Nat.id; lia.
  - exists []. split; [reflexivity |]. replace k with 0 by lia. reflexivity.
Qed.
(** Moving the variable moves the offsets. *)
Lemma put_shift : forall fuel t adr d, PutPtrOffsets info fuel t (adr + d) = let* l := PutPtrOffsets info fuel t adr in Ok (map (Z.add d) l).
Proof.
  induction fuel as [| fuel IH]; intros t adr d; [reflexivity |]. cbn [PutPtrOffsets]. cbv zeta.
  destruct ((t_form (info t) =? 11) && (t_flag (info t) =? 0)); [cbn [bind map]; rewrite Z.add_comm; reflexivity |].
  destruct ((t_comp (info t) =? 4) && (t_flag (info t) mod 256 =? 0)).
  { assert (Q : forall fs, put_flds (PutPtrOffsets info fuel) fs (adr + d) = let* l := put_flds (PutPtrOffsets info fuel) fs adr in Ok (map (Z.add d) l)).
    { induction fs as [| f fs IF]; cbn [put_flds]; [reflexivity |]. replace (adr + d + fadr f) with (adr + fadr f + d) by lia. rewrite IH, IF. destruct (is_hd f).
      - cbn [bind]. destruct (put_flds (PutPtrOffsets info fuel) fs adr); cbn [bind]; try reflexivity. rewrite map_app. cbn [map app]. do 2 f_equal. lia.
      - destruct (PutPtrOffsets info fuel (ftyp f) (adr + fadr f)); cbn [bind]; try reflexivity. destruct (put_flds (PutPtrOffsets info fuel) fs adr); cbn [bind]; try reflexivity. rewrite map_app. reflexivity. }
    rewrite Q. destruct (t_base (info t)) as [b |]; [rewrite IH |].
    - destruct (PutPtrOffsets info fuel b adr); cbn [bind]; try reflexivity. destruct (put_flds (PutPtrOffsets info fuel) (t_flds (info t)) adr); cbn [bind]; try reflexivity. rewrite map_app. reflexivity.
    - cbn [bind]. destruct (put_flds (PutPtrOffsets info fuel) (t_flds (info t)) adr); cbn [bind]; try reflexivity. }
  destruct (t_comp (info t) =? 2); [| reflexivity]. destruct (t_base (info t)) as [b |]; [| reflexivity]. destruct (dims info fuel b (t_n (info t))) as [[c m] | | |]; cbn [bind]; try reflexivity.
  destruct (NofPtrs info fuel c); cbn [bind]; try reflexivity. destruct (a >? 0); [| reflexivity]. generalize 0. induction (Z.to_nat m) as [| j IJ]; intros i; cbn [put_elems]; [reflexivity |].
  replace (adr + d + i * t_size (info c)) with (adr + i * t_size (info c) + d) by lia. rewrite IH, IJ. destruct (PutPtrOffsets info fuel c (adr + i * t_size (info c))); cbn [bind]; try reflexivity.
  destruct (put_elems j (PutPtrOffsets info fuel c) adr (t_size (info c)) (i + 1)); cbn [bind]; try reflexivity. rewrite map_app. reflexivity.
Qed.
(** More fuel does not change a result. *)
Lemma dims_fuel : forall fuel fuel' b n r, (fuel <= fuel')%nat -> dims info fuel b n = Ok r -> dims info fuel' b n = Ok r.
Proof.
  induction fuel as [| fuel IH]; intros [| fuel'] b n r L E; try discriminate; try lia. cbn [dims] in *. destruct (t_comp (info b) =? 2); [| exact E]. destruct (t_base (info b)); [| exact E]. apply (IH fuel'); [lia | exact E].
Qed.
Lemma count_fuel : forall fuel fuel' t n, (fuel <= fuel')%nat -> NofPtrs info fuel t = Ok n -> NofPtrs info fuel' t = Ok n.
Proof.
  induction fuel as [| fuel IH]; intros [| fuel'] t n L E; try discriminate; try lia. cbn [NofPtrs] in *. cbv zeta in *.
  destruct ((t_form (info t) =? 11) && (t_flag (info t) =? 0)); [exact E |].
  destruct ((t_comp (info t) =? 4) && (t_flag (info t) mod 256 =? 0)).
  { assert (Q : forall fs k, count_flds (NofPtrs info fuel) fs = Ok k -> count_flds (NofPtrs info fuel') fs = Ok k).
    { induction fs as [| f fs IF]; intros k C; cbn [count_flds] in *; [exact C |]. destruct (is_hd f).
      - cbn [bind] in *. destruct (count_flds (NofPtrs info fuel) fs) as [b | | |]; try discriminate. rewrite (IF b eq_refl). exact C.
      - destruct (NofPtrs info fuel (ftyp f)) as [a | | |] eqn:A; try discriminate. rewrite (IH fuel' _ _ ltac:(lia) A). cbn [bind] in *. destruct (count_flds (NofPtrs info fuel) fs) as [b | | |]; try discriminate. rewrite (IF b eq_refl). exact C. }
    destruct (match t_base (info t) with Some b => NofPtrs info fuel b | None => Ok 0 end) as [a | | |] eqn:A; try discriminate.
    assert (A' : match t_base (info t) with Some b => NofPtrs info fuel' b | None => Ok 0 end = Ok a) by (destruct (t_base (info t)); [apply (IH fuel'); [lia | exact A] | exact A]). rewrite A'.
    cbn [bind] in *. destruct (count_flds (NofPtrs info fuel) (t_flds (info t))) as [k | | |] eqn:CF; try discriminate. rewrite (Q _ _ CF). exact E. }
  destruct (t_comp (info t) =? 2); [| exact E]. destruct (t_base (info t)); [| exact E]. destruct (dims info fuel t0 (t_n (info t))) as [[c m] | | |] eqn:D; try discriminate.
  rewrite (dims_fuel fuel fuel' _ _ _ ltac:(lia) D). cbn [bind] in *. destruct (NofPtrs info fuel c) as [k | | |] eqn:A; try discriminate. rewrite (IH fuel' _ _ ltac:(lia) A). exact E.
Qed.
Lemma put_fuel : forall fuel fuel' t adr l, (fuel <= fuel')%nat -> PutPtrOffsets info fuel t adr = Ok l -> PutPtrOffsets info fuel' t adr = Ok l.
Proof.
  induction fuel as [| fuel IH]; intros [| fuel'] t adr l L E; try discriminate; try lia. cbn [PutPtrOffsets] in *. cbv zeta in *.
  destruct ((t_form (info t) =? 11) && (t_flag (info t) =? 0)); [exact E |].
  destruct ((t_comp (info t) =? 4) && (t_flag (info t) mod 256 =? 0)).
  { assert (Q : forall fs k, put_flds (PutPtrOffsets info fuel) fs adr = Ok k -> put_flds (PutPtrOffsets info fuel') fs adr = Ok k).
    { induction fs as [| f fs IF]; intros k C; cbn [put_flds] in *; [exact C |]. destruct (is_hd f).
      - cbn [bind] in *. destruct (put_flds (PutPtrOffsets info fuel) fs adr) as [b | | |]; try discriminate. rewrite (IF b eq_refl). exact C.
      - destruct (PutPtrOffsets info fuel (ftyp f) (adr + fadr f)) as [a | | |] eqn:A; try discriminate. rewrite (IH fuel' _ _ _ ltac:(lia) A). cbn [bind] in *. destruct (put_flds (PutPtrOffsets info fuel) fs adr) as [b | | |]; try discriminate. rewrite (IF b eq_refl). exact C. }
    destruct (match t_base (info t) with Some b => PutPtrOffsets info fuel b adr | None => Ok [] end) as [a | | |] eqn:A; try discriminate.
    assert (A' : match t_base (info t) with Some b => PutPtrOffsets info fuel' b adr | None => Ok [] end = Ok a) by (destruct (t_base (info t)); [apply (IH fuel'); [lia | exact A] | exact A]). rewrite A'.
    cbn [bind] in *. destruct (put_flds (PutPtrOffsets info fuel) (t_flds (info t)) adr) as [k | | |] eqn:CF; try discriminate. rewrite (Q _ _ CF). exact E. }
  destruct (t_comp (info t) =? 2); [| exact E]. destruct (t_base (info t)); [| exact E]. destruct (dims info fuel t0 (t_n (info t))) as [[c m] | | |] eqn:D; try discriminate.
  rewrite (dims_fuel fuel fuel' _ _ _ ltac:(lia) D). cbn [bind] in *. destruct (NofPtrs info fuel c) as [k | | |] eqn:A; try discriminate. rewrite (count_fuel fuel fuel' _ _ ltac:(lia) A). cbn [bind] in *. destruct (k >? 0); [| exact E].
  clear D. revert l E. generalize 0. induction (Z.to_nat m) as [| j IJ]; intros i l E; cbn [put_elems] in *; [exact E |].
  destruct (PutPtrOffsets info fuel c (adr + i * t_size (info c))) as [l1 | | |] eqn:P1; try discriminate. rewrite (IH fuel' _ _ _ ltac:(lia) P1). cbn [bind] in *.
  destruct (put_elems j (PutPtrOffsets info fuel c) adr (t_size (info c)) (i + 1)) as [l2 | | |] eqn:P2; try discriminate. rewrite (IJ _ _ P2). exact E.
Qed.
End Gen.

Section Client.
Variables (g : graph) (H : fld -> list Z).
Hypothesis WF : wf g H.
Hypothesis HID : hiddens g H.
Hypothesis PL : plain_hidden g.
Local Notation G := (info_g g).

Lemma lens_g : forall t, t_comp (G t) = 2 -> 0 <= t_n (G t).
Proof.
  intros [f | s | s | i] C; cbn in *; try lia. destruct (wf_strs _ _ WF i) as (_ & _ & _ & _ & Q). destruct (sshape (str_of g i)); try discriminate. cbn. lia.
Qed.
Lemma size_g : forall t, t_size (G t) = size_of g t.
Proof. intros [| | | i]; reflexivity. Qed.
Lemma elem_dims : forall F t x b k, elem g F t x = Ok (b, k) -> forall F' c m, dims G F' t x = Ok (c, m) -> c = b /\ m = k.
Proof.
  induction F as [| F IH]; intros t x b k E F' c m D; [discriminate |]. cbn [elem] in E. destruct F' as [| F']; [discriminate |]. cbn [dims] in D.
  destruct t as [f | s | s | i]; cbn [shape_of] in E; try (cbn in D; inversion E; inversion D; subst; auto; fail).
  cbn [info_g t_comp t_base t_n] in D.
  destruct (sshape (str_of g i)) as [p | sg | eb en | eb | base al n fs ps] eqn:SH; cbn [comp_of shape_base] in D; try (cbn in D; inversion E; inversion D; subst; auto; fail).
  change (2 =? 2) with true in D. cbv iota in D. destruct (chk 32 (en * x)) as [y | | |] eqn:CK; try discriminate. cbn [bind] in E. apply chk_inv in CK as [-> _]. apply (IH _ _ _ _ E _ _ _ D).
Qed.
Lemma plain_arr : forall i b n, plain g (TS i) -> sshape (str_of g i) = Array b n -> plain g b.
Proof. intros i b n P SH. remember (TS i) as t. destruct P as [t NT | | | j b' n' SH' P | |]; [exfalso; apply (NT i Heqt) | | | | |]; inversion Heqt; subst; congruence. Qed.
Lemma plain_elem : forall F t x b k, plain g t -> elem g F t x = Ok (b, k) -> plain g b /\ is_array g b = false.
Proof.
  induction F as [| F IH]; intros t x b k P E; [discriminate |]. cbn [elem] in E. unfold is_array. destruct (shape_of g t) as [sh |] eqn:SH.
  - destruct t as [f | s | s | i]; try discriminate. cbn [shape_of] in SH. inversion SH as [SH']. destruct sh as [p | sg | eb en | eb | base al n fs ps]; try (inversion E; subst b k; split; [exact P | cbn; rewrite SH'; reflexivity]).
    destruct (chk 32 (en * x)) as [y | | |]; try discriminate. cbn [bind] in E. apply (IH _ _ _ _) with (2 := E). apply (plain_arr i _ _ P SH').
  - inversion E; subst b k. rewrite SH. auto.
Qed.
Lemma hid_put : forall F t nm adr l, plain g t -> nm <> HdPtrName -> hid g F t nm adr = Some l -> forall F' l', PutPtrOffsets G F' t adr = Ok l' -> l' = l.
Proof.
  induction F as [| F IH]; intros t nm adr l P NN E F' l' E'; [discriminate |]. destruct F' as [| F']; [discriminate |]. cbn [hid] in E. cbn [PutPtrOffsets] in E'. cbv zeta in E'.
  destruct (list_eq_dec Z.eq_dec nm HdPtrName) as [| _]; [contradiction |]. rewrite orb_false_r in E.
  destruct P as [t NT | i b SH FL | i s SH | i b n SH P | i b SH | i al n fs ps SH FL PF].
  - destruct t as [f | s | s | i]; [| | | exfalso; apply (NT i); reflexivity]; cbn in E, E'; try (inversion E; inversion E'; subst; reflexivity).
    destruct (f =? 11); cbn in E'; inversion E; inversion E'; subst; reflexivity.
  - unfold is_record, is_array, is_pointer in E. cbn [shape_of] in E. rewrite SH in E. cbn [info_g t_form t_flag] in E'. rewrite SH, FL in E'. cbn in E'. inversion E; inversion E'; subst; reflexivity.
  - unfold is_record, is_array, is_pointer in E. cbn [shape_of] in E. rewrite SH in E. cbn [info_g t_form t_flag t_comp] in E'. rewrite SH in E'. cbn in E'. inversion E; inversion E'; subst; reflexivity.
  - assert (NR : is_record g (TS i) = false) by (unfold is_record; cbn [shape_of]; rewrite SH; reflexivity). assert (NA : is_array g (TS i) = true) by (unfold is_array; cbn [shape_of]; rewrite SH; reflexivity).
    rewrite NR, NA in E. destruct (elem g F (TS i) 1) as [[c k] | | |] eqn:EL; try discriminate.
    assert (PI : plain g (TS i)) by (apply (P_array g i b n SH P)). destruct (plain_elem _ _ _ _ _ PI EL) as [PC AC].
    cbn [info_g t_form t_flag t_comp t_base t_n] in E'. rewrite SH in E'. cbn [form_of comp_of shape_base] in E'. change (13 =? 11) with false in E'. change (2 =? 4) with false in E'. change (2 =? 2) with true in E'. cbn [andb] in E'.
    destruct (dims G F' b n) as [[c' m] | | |] eqn:D; try discriminate. cbn [bind] in E'.
    assert (Q : c' = c /\ m = k).
    { apply (elem_dims F (TS i) 1 c k EL (S F')). cbn [dims info_g t_comp t_base t_n]. rewrite SH. cbn [comp_of shape_base]. change (2 =? 2) with true. cbv iota. rewrite Z.mul_1_r. exact D. }
    destruct Q as [-> ->]. destruct (NofPtrs G F' c) as [np | | |] eqn:NP; try discriminate. cbn [bind] in E'. rewrite size_g in E'.
    destruct (is_pointer g c || is_record g c) eqn:PR.
    + destruct (Z.gtb_spec np 0) as [GT | LE].
      * assert (Q : forall j a i0 l l', hid_elems j (hid g F c nm) (a + i0 * size_of g c) (size_of g c) = Some l -> put_elems j (PutPtrOffsets G F' c) a (size_of g c) i0 = Ok l' -> l' = l).
        { clear E E' l l'. induction j as [| j IJ]; intros a i0 l l' E E'; cbn [hid_elems put_elems] in *; [inversion E; inversion E'; subst; reflexivity |].
          destruct (hid g F c nm (a + i0 * size_of g c)) as [l1 |] eqn:H1; [| discriminate]. destruct (PutPtrOffsets G F' c (a + i0 * size_of g c)) as [l2 | | |] eqn:H2; try discriminate. cbn [bind] in E'.
          rewrite (IH _ _ _ _ PC NN H1 _ _ H2) in *. replace (a + i0 * size_of g c + size_of g c) with (a + (i0 + 1) * size_of g c) in E by lia.
          destruct (hid_elems j (hid g F c nm) (a + (i0 + 1) * size_of g c) (size_of g c)) as [l3 |] eqn:H3; [| discriminate].
          destruct (put_elems j (PutPtrOffsets G F' c) a (size_of g c) (i0 + 1)) as [l4 | | |] eqn:H4; try discriminate. cbn [bind] in E'. rewrite (IJ _ _ _ _ H3 H4) in *. inversion E; inversion E'; subst; reflexivity. }
        apply (Q (Z.to_nat k) adr 0); [rewrite Z.mul_0_l, Z.add_0_r; exact E | exact E'].
      * apply Ok_inj in E'. subst l'. symmetry. clear EL D. revert l E. generalize adr at 1. induction (Z.to_nat k) as [| j IJ]; intros a l E; cbn [hid_elems] in E; [inversion E; reflexivity |].
        destruct (hid g F c nm a) as [l1 |] eqn:H1; [| discriminate]. destruct (hid_elems j (hid g F c nm) (a + size_of g c) (size_of g c)) as [l2 |] eqn:H2; [| discriminate].
        destruct (put_count G lens_g _ _ _ NP a) as (l3 & P3 & L3). rewrite (IH _ _ _ _ PC NN H1 _ _ P3) in L3. rewrite Zlength_correct in L3. destruct l1; [| cbn in L3; lia]. inversion E; subst. apply (IJ _ _ H2).
    + inversion E; subst l. apply orb_false_iff in PR as [PR1 PR2]. destruct F' as [| F']; [discriminate |]. cbn [NofPtrs] in NP. cbv zeta in NP.
      assert (np = 0); [| subst np; inversion E'; reflexivity].
      destruct c as [f | s | s | j]; cbn in NP, PR1, PR2, AC; try (inversion NP; reflexivity); [rewrite PR1 in NP; cbn in NP; inversion NP; reflexivity |].
      unfold is_pointer, is_record, is_array in *. cbn [shape_of] in *. destruct (sshape (str_of g j)); try discriminate; cbn in NP; inversion NP; reflexivity.
  - unfold is_record, is_array, is_pointer in E. cbn [shape_of] in E. rewrite SH in E. cbn [info_g t_form t_flag t_comp] in E'. rewrite SH in E'. cbn in E'. inversion E; inversion E'; subst; reflexivity.
  - unfold is_record in E. cbn [shape_of] in E. unfold fields in E. cbn [shape_of] in E. rewrite SH in E. cbv iota in E.
    cbn [info_g t_form t_flag t_comp t_base t_flds] in E'. unfold fields in E'. cbn [shape_of] in E'. rewrite SH, FL in E'. cbn [form_of comp_of shape_base] in E'. change (13 =? 11) with false in E'. change (4 =? 4) with true in E'. change (0 =? 0) with true in E'. cbn [andb bind app] in E'.
    destruct (put_flds (PutPtrOffsets G F') fs adr) as [l1 | | |] eqn:PU; try discriminate. apply Ok_inj in E'. subst l1. clear SH. revert l l' E PU. induction fs as [| f fs IF]; intros l l' E PU; cbn [hid_flds put_flds] in *; [inversion E; inversion PU; subst; reflexivity |].
    destruct (hid g F (ftyp f) (fname f) (fadr f + adr)) as [l1 |] eqn:H1; [| discriminate]. destruct (hid_flds (hid g F) fs adr) as [l2 |] eqn:H2; [| discriminate]. inversion E; subst l. clear E.
    destruct (PF f (or_introl eq_refl)) as [f NF PT | f NF TT].
    + unfold is_hd in PU. destruct (list_eq_dec Z.eq_dec (fname f) HdPtrName) as [| _]; [contradiction |]. destruct (PutPtrOffsets G F' (ftyp f) (adr + fadr f)) as [l3 | | |] eqn:H3; try discriminate. cbn [bind] in PU.
      destruct (put_flds (PutPtrOffsets G F') fs adr) as [l4 | | |] eqn:H4; try discriminate. cbn [bind] in PU. apply Ok_inj in PU. subst l'. rewrite Z.add_comm in H3. rewrite (IH _ _ _ _ PT NF H1 _ _ H3). f_equal. apply IF; auto. intros f' J. apply PF. right. exact J.
    + unfold is_hd in PU. destruct (list_eq_dec Z.eq_dec (fname f) HdPtrName) as [_ |]; [| contradiction]. cbn [bind] in PU. destruct (put_flds (PutPtrOffsets G F') fs adr) as [l4 | | |] eqn:H4; try discriminate. cbn [bind] in PU. apply Ok_inj in PU. subst l'.
      destruct F as [| F]; [discriminate |]. rewrite TT, NF in H1. cbn [hid] in H1. unfold is_record, is_array, is_pointer in H1. cbn in H1. inversion H1; subst l1. rewrite (Z.add_comm adr). f_equal. apply IF; auto. intros f' J. apply PF. right. exact J.
Qed.

Variables (rho : nat -> option nat) (mn : nat -> option name) (ts : list istr).
Hypothesis T : forall i s, rho i = Some s -> exists x, nth_error ts s = Some x /\ corr g H rho mn i x.
Local Notation C := (info_c ts).

(** What is the same for a type and its entry. *)
Lemma info_same : forall t t', tcorr rho t t' -> t_form (C t') = t_form (G t) /\ t_comp (C t') = t_comp (G t) /\ t_flag (C t') = t_flag (G t) /\ t_size (C t') = t_size (G t) /\
  (t_comp (G t) = 2 -> t_n (C t') = t_n (G t) /\ exists b b', t_base (G t) = Some b /\ t_base (C t') = Some b' /\ tcorr rho b b') /\
  (t_comp (G t) = 4 -> match t_base (G t), t_base (C t') with Some b, Some b' => tcorr rho b b' | None, None => True | _, _ => False end /\ Forall2 (fcorr rho) (seen H (t_flds (G t))) (t_flds (C t')) /\
     Forall (ok_fld H) (t_flds (G t)) /\ forall f, In f (t_flds (G t)) -> fvis f = Internal -> plain_fld g f /\ hidden_ptrs g f (H f)).
Proof.
  intros [f | s | s | i] t' TC; cbn [tcorr] in TC; try (subst t'; cbn; conjs; discriminate). destruct TC as (s & R & ->). destruct (T i s R) as (x & N & A1 & A2 & A3 & A4 & A5 & A6 & A7).
  unfold info_g, info_c. rewrite N. cbn [t_form t_comp t_flag t_size t_n t_base t_flds]. rewrite A3, A4, A5, A6. conjs.
  - intros Q. destruct (sshape (str_of g i)); try discriminate. destruct A7 as (E & b' & B & TB). split; [exact E |]. exists base, b'. auto.
  - intros Q. pose proof (wf_strs _ _ WF i) as (_ & _ & _ & _ & OS). unfold fields. cbn [shape_of]. destruct (sshape (str_of g i)) as [| | | | base al n fs ps] eqn:SH; try discriminate. cbn [shape_base]. destruct A7 as (B & _ & _ & _ & FC & _). destruct OS as (_ & _ & _ & OF & _).
    split; [destruct base as [b |]; [destruct B as (b' & -> & TB); exact TB | rewrite B; exact I] |]. split; [exact FC |]. split; [exact OF |]. intros f J V. split; [apply (PL i _ _ _ _ _ f SH J V) | apply (HID i _ _ _ _ _ f SH J V)].
Qed.
Lemma dims_same : forall F b b' n c m, tcorr rho b b' -> dims G F b n = Ok (c, m) -> exists c', dims C F b' n = Ok (c', m) /\ tcorr rho c c'.
Proof.
  induction F as [| F IH]; intros b b' n c m TC D; [discriminate |]. cbn [dims] in *. destruct (info_same b b' TC) as (_ & E2 & _ & _ & E5 & _). rewrite E2. destruct (Z.eqb_spec (t_comp (G b)) 2) as [Q | Q].
  - destruct (E5 Q) as (-> & e & e' & B & B' & TE). rewrite B in D. rewrite B'. apply (IH _ _ _ _ _ TE D).
  - inversion D; subst. exists b'. auto.
Qed.
(** A hidden field and the entries that stand for it. *)
Lemma hidden_same : forall F f adr l, plain_fld g f -> hidden_ptrs g f (H f) -> (if is_hd f then Ok [adr + fadr f] else PutPtrOffsets G F (ftyp f) (adr + fadr f)) = Ok l -> l = map (Z.add adr) (H f).
Proof.
  intros F f adr l PF (F0 & HF) E. destruct PF as [f NF PT | f NF TT]; unfold is_hd in E.
  - destruct (list_eq_dec Z.eq_dec (fname f) HdPtrName) as [| _]; [contradiction |]. rewrite Z.add_comm, (put_shift G lens_g) in E. destruct (PutPtrOffsets G F (ftyp f) (fadr f)) as [l1 | | |] eqn:P1; try discriminate. cbn [bind] in E. apply Ok_inj in E. subst l.
    rewrite (hid_put _ _ _ _ _ PT NF HF _ _ P1). reflexivity.
  - destruct (list_eq_dec Z.eq_dec (fname f) HdPtrName) as [_ |]; [| contradiction]. apply Ok_inj in E. subst l. destruct F0 as [| F0]; [discriminate |]. rewrite TT, NF in HF. cbn in HF. inversion HF. reflexivity.
Qed.
Lemma entries : forall (l : list Z) fs' one onec adr, Forall2 (fcorr rho) (map (fun a => mkfld HdPtrName Internal (TB 0) a) l) fs' ->
  put_flds one fs' adr = Ok (map (Z.add adr) l) /\ count_flds onec fs' = Ok (Zlength l).
Proof.
  induction l as [| a l IH]; intros fs' one onec adr F; cbn [map] in F; inversion F as [| x y lx ly FC FS]; subst; [split; reflexivity |].
  destruct FC as (E1 & _ & _ & E4). cbn [fname fadr] in E1, E4. destruct (IH ly one onec adr FS) as [P1 P2]. cbn [put_flds count_flds]. unfold is_hd. rewrite E1. destruct (list_eq_dec Z.eq_dec HdPtrName HdPtrName); [| contradiction].
  rewrite P1, P2, E4. cbn [bind map app]. split; [reflexivity |]. rewrite Zlength_cons. f_equal. lia.
Qed.
Lemma flds_app : forall one onec adr a b x y u v, put_flds one a adr = Ok x -> put_flds one b adr = Ok y -> count_flds onec a = Ok u -> count_flds onec b = Ok v ->
  put_flds one (a ++ b) adr = Ok (x ++ y) /\ count_flds onec (a ++ b) = Ok (u + v).
Proof.
  intros one onec adr. induction a as [| f a IH]; intros b x y u v PA PB CA CB; cbn [put_flds count_flds app] in *.
  - inversion PA; inversion CA; subst. auto.
  - destruct (if is_hd f then Ok [adr + fadr f] else one (ftyp f) (adr + fadr f)) as [l1 | | |]; try discriminate. cbn [bind] in *. destruct (put_flds one a adr) as [l2 | | |]; try discriminate. cbn [bind] in *. inversion PA; subst x.
    destruct (if is_hd f then Ok 1 else onec (ftyp f)) as [k1 | | |]; try discriminate. cbn [bind] in *. destruct (count_flds onec a) as [k2 | | |]; try discriminate. cbn [bind] in *. inversion CA; subst u.
    destruct (IH b l2 y k2 v eq_refl PB eq_refl CB) as [-> ->]. cbn [bind]. rewrite app_assoc. split; [reflexivity | f_equal; lia].
Qed.
Lemma put_flds_ok : forall F fs adr k, count_flds (NofPtrs G F) fs = Ok k -> exists l, put_flds (PutPtrOffsets G F) fs adr = Ok l.
Proof.
  intros F. induction fs as [| f fs IF]; intros adr k E; cbn [count_flds put_flds] in *; [eauto |]. destruct (is_hd f).
  - cbn [bind] in *. destruct (count_flds (NofPtrs G F) fs) as [b | | |] eqn:CB; try discriminate. destruct (IF adr b eq_refl) as (l & ->). cbn [bind]. eauto.
  - destruct (NofPtrs G F (ftyp f)) as [a | | |] eqn:CA; try discriminate. cbn [bind] in *. destruct (count_flds (NofPtrs G F) fs) as [b | | |] eqn:CB; try discriminate. destruct (IF adr b eq_refl) as (l & ->). destruct (put_count G lens_g _ _ _ CA (adr + fadr f)) as (l1 & -> & _). cbn [bind]. eauto.
Qed.

Lemma client_same : forall F t t', tcorr rho t t' ->
  (forall n, NofPtrs G F t = Ok n -> NofPtrs C F t' = Ok n) /\ (forall adr l, PutPtrOffsets G F t adr = Ok l -> PutPtrOffsets C F t' adr = Ok l).
Proof.
  induction F as [| F IH]; intros t t' TC; [split; discriminate |]. destruct (info_same t t' TC) as (E1 & E2 & E3 & E4 & E5 & E6). cbn [NofPtrs PutPtrOffsets]. cbv zeta. rewrite E1, E2, E3.
  destruct ((t_form (G t) =? 11) && (t_flag (G t) =? 0)); [auto |].
  destruct ((t_comp (G t) =? 4) && (t_flag (G t) mod 256 =? 0)) eqn:RC.
  { apply andb_true_iff in RC as [RC _]. apply Z.eqb_eq in RC. destruct (E6 RC) as (BB & FF & OF & HF). clear E5 E6.
    assert (Q1 : forall n, (match t_base (G t) with Some b => NofPtrs G F b | None => Ok 0 end) = Ok n -> (match t_base (C t') with Some b => NofPtrs C F b | None => Ok 0 end) = Ok n).
    { intros n. destruct (t_base (G t)) as [b |], (t_base (C t')) as [b' |]; try contradiction; auto. apply (IH _ _ BB). }
    assert (Q2 : forall adr l, (match t_base (G t) with Some b => PutPtrOffsets G F b adr | None => Ok [] end) = Ok l -> (match t_base (C t') with Some b => PutPtrOffsets C F b adr | None => Ok [] end) = Ok l).
    { intros adr l. destruct (t_base (G t)) as [b |], (t_base (C t')) as [b' |]; try contradiction; auto. apply (IH _ _ BB). }
    assert (Q : forall fs fs', Forall2 (fcorr rho) (seen H fs) fs' -> Forall (ok_fld H) fs -> (forall f, In f fs -> fvis f = Internal -> plain_fld g f /\ hidden_ptrs g f (H f)) ->
      (forall k, count_flds (NofPtrs G F) fs = Ok k -> count_flds (NofPtrs C F) fs' = Ok k) /\ (forall adr l, put_flds (PutPtrOffsets G F) fs adr = Ok l -> put_flds (PutPtrOffsets C F) fs' adr = Ok l)).
    { induction fs as [| f fs IF]; intros fs' FC OK HH; cbn [seen flat_map] in FC.
      - inversion FC; subst. auto.
      - apply Forall2_app_inv_l in FC as (f1 & f2 & FC1 & FC2 & ->). apply Forall_cons_iff in OK as [O1 O2]. destruct (IF f2 FC2 O2 (fun x J => HH x (or_intror J))) as [I1 I2]. clear IF.
        assert (VV : fvis f = Internal \/ fvis f <> Internal) by (destruct (fvis f); [left; reflexivity | right; discriminate | right; discriminate]). destruct VV as [V | V].
        + rewrite V in FC1. destruct (HH f (or_introl eq_refl) V) as [PF HP].
          split.
          * intros k E. cbn [count_flds] in E. destruct (if is_hd f then Ok 1 else NofPtrs G F (ftyp f)) as [a | | |] eqn:A; try discriminate. cbn [bind] in E. destruct (count_flds (NofPtrs G F) fs) as [b | | |] eqn:B; try discriminate. cbn [bind] in E. apply Ok_inj in E. subst k.
            assert (LA : a = Zlength (H f)).
            { destruct (is_hd f) eqn:HD.
              - pose proof (hidden_same F f 0 [0 + fadr f] PF HP) as Q. rewrite HD in Q. specialize (Q eq_refl). apply Ok_inj in A. subst a. destruct (H f) as [| h [| h2 l]]; cbn in Q; try discriminate. reflexivity.
              - destruct (put_count G lens_g _ _ _ A (0 + fadr f)) as (l & PL' & LL). pose proof (hidden_same F f 0 l PF HP) as Q. rewrite HD in Q. specialize (Q PL'). subst l. rewrite <- LL. rewrite !Zlength_correct, map_length. reflexivity. }
            subst a. destruct (put_flds_ok F fs 0 b B) as (l2 & L2). destruct (entries (H f) f1 (PutPtrOffsets C F) (NofPtrs C F) 0 FC1) as [P1 C1].
            apply (flds_app (PutPtrOffsets C F) (NofPtrs C F) 0 f1 f2 _ l2 _ b P1); auto.
          * intros adr l E. cbn [put_flds] in E. destruct (if is_hd f then Ok [adr + fadr f] else PutPtrOffsets G F (ftyp f) (adr + fadr f)) as [a | | |] eqn:A; try discriminate. cbn [bind] in E. destruct (put_flds (PutPtrOffsets G F) fs adr) as [b | | |] eqn:B; try discriminate. cbn [bind] in E. apply Ok_inj in E. subst l.
            rewrite (hidden_same F f adr a PF HP A). specialize (I2 adr b B). clear - I2 FC1. revert f1 FC1. induction (H f) as [| a l IL]; intros f1 FC1; cbn [map] in FC1; inversion FC1 as [| x y lx ly FC FS]; subst; [exact I2 |].
            destruct FC as (X1 & _ & _ & X4). cbn [fname fadr] in X1, X4. cbn [app put_flds]. unfold is_hd. rewrite X1. destruct (list_eq_dec Z.eq_dec HdPtrName HdPtrName); [| contradiction]. rewrite (IL ly FS), X4. reflexivity.
        + assert (FX : exists f', f1 = [f'] /\ fcorr rho f f') by (destruct (fvis f); [contradiction | |]; inversion FC1 as [| x y lx ly Q1' Q2']; subst; inversion Q2'; subst; eauto). clear FC1. destruct FX as (f' & -> & X1 & _ & X3 & X4).
          assert (ON : fname f <> HdPtrName). { unfold ok_fld in O1. destruct (fvis f); [contradiction | |]; destruct O1 as (_ & _ & (_ & _ & NN)); intros Q; rewrite Q in NN; apply NN; reflexivity. }
          cbn [app count_flds put_flds]. unfold is_hd. rewrite X1, X4. destruct (list_eq_dec Z.eq_dec (fname f) HdPtrName) as [| _]; [contradiction |]. destruct (IH _ _ X3) as [J1 J2]. split.
          * intros k E. destruct (NofPtrs G F (ftyp f)) as [a | | |]; try discriminate. rewrite (J1 a eq_refl). cbn [bind] in *. destruct (count_flds (NofPtrs G F) fs) as [b | | |]; try discriminate. rewrite (I1 b eq_refl). exact E.
          * intros adr l E. destruct (PutPtrOffsets G F (ftyp f) (adr + fadr f)) as [a | | |] eqn:A; try discriminate. rewrite (J2 _ a A). cbn [bind] in *. destruct (put_flds (PutPtrOffsets G F) fs adr) as [b | | |] eqn:B; try discriminate. rewrite (I2 _ b B). exact E. }
    destruct (Q _ _ FF OF HF) as [R1 R2]. split.
    - intros n E. destruct (match t_base (G t) with Some b => NofPtrs G F b | None => Ok 0 end) as [a | | |]; try discriminate. rewrite (Q1 a eq_refl). cbn [bind] in *. destruct (count_flds (NofPtrs G F) (t_flds (G t))) as [b | | |]; try discriminate. rewrite (R1 b eq_refl). exact E.
    - intros adr l E. destruct (match t_base (G t) with Some b => PutPtrOffsets G F b adr | None => Ok [] end) as [a | | |] eqn:A; try discriminate. rewrite (Q2 adr a A). cbn [bind] in *. destruct (put_flds (PutPtrOffsets G F) (t_flds (G t)) adr) as [b | | |] eqn:B; try discriminate. rewrite (R2 _ b B). exact E. }
  destruct (Z.eqb_spec (t_comp (G t)) 2) as [AC |]; [| auto]. destruct (E5 AC) as (NE & b & b' & B & B' & TB). rewrite B, B', NE.
  destruct (dims G F b (t_n (G t))) as [[c m] | | |] eqn:D; [| split; intros; discriminate | split; intros; discriminate | split; intros; discriminate].
  destruct (dims_same _ _ _ _ _ _ TB D) as (c' & -> & TCC). cbn [bind]. destruct (IH _ _ TCC) as [J1 J2]. destruct (info_same c c' TCC) as (_ & _ & _ & SZ & _).
  split.
  - intros n E. destruct (NofPtrs G F c) as [k | | |]; try discriminate. rewrite (J1 k eq_refl). exact E.
  - intros adr l E. destruct (NofPtrs G F c) as [k | | |]; try discriminate. rewrite (J1 k eq_refl). cbn [bind] in *. destruct (k >? 0); [| exact E]. rewrite SZ. clear D. revert l E. generalize 0. induction (Z.to_nat m) as [| j IJ]; intros i l E; cbn [put_elems] in *; [exact E |].
    destruct (PutPtrOffsets G F c (adr + i * t_size (G c))) as [l1 | | |] eqn:P1; try discriminate. rewrite (J2 _ _ P1). cbn [bind] in *. destruct (put_elems j (PutPtrOffsets G F c) adr (t_size (G c)) (i + 1)) as [l2 | | |] eqn:P2; try discriminate. rewrite (IJ _ _ P2). exact E.
Qed.
End Client.

(** As many offsets are written as were counted for the size of the table. *)
Theorem C63_count : forall g H fuel t n adr, wf g H -> NofPtrs (info_g g) fuel t = Ok n -> exists l, PutPtrOffsets (info_g g) fuel t adr = Ok l /\ Zlength l = n.
Proof. intros g H fuel t n adr WF E. apply (put_count _ (lens_g g H WF) _ _ _ E). Qed.
Print Assumptions C63_count.
(** A client that has imported the module ([sees]) counts and writes the same offsets for each of its types as the module does, wherever the variable lies; [ts''] is its table of
    types with its own types added. *)
Theorem C63_client_offsets : forall g H K ts ms ts' ms' m rho ts'', wf g H -> hiddens g H -> plain_hidden g -> sees g H K ts ms ts' ms' m rho ->
  (forall s x, nth_error ts' s = Some x -> nth_error ts'' s = Some x) ->
  forall i s fuel, rho i = Some s ->
    (forall n, NofPtrs (info_g g) fuel (TS i) = Ok n -> NofPtrs (info_c ts'') fuel (TS s) = Ok n) /\
    (forall adr l, PutPtrOffsets (info_g g) fuel (TS i) adr = Ok l -> PutPtrOffsets (info_c ts'') fuel (TS s) adr = Ok l).
Proof.
  intros g H K ts ms ts' ms' m rho ts'' WF HID PL S EX i s fuel R. apply (client_same g H WF HID PL rho (fun k => option_map fst (nth_error ms' k)) ts''); [| exists s; auto].
  intros j k RJ. destruct (s_types _ _ _ _ _ _ _ _ _ S j k RJ) as (x & N & CR). exists x. auto.
Qed.
Print Assumptions C63_client_offsets.
(** From the module to the client: after importing the file, an exported type has the offsets it has in the module. *)
From Verif Require Import SymImport SymProps.
Theorem C63_export_import : forall g H self K ts ms fuel links file n i,
  wf g H -> hiddens g H -> plain_hidden g -> total_hidden g H <= MaxHdFld -> Forall ok_name links -> client g self K ts ms -> Export g fuel links = Ok file ->
  In (n, mkobj External (KTyp (TS i))) (objects g) ->
  exists N m r s, (forall k, (N <= k)%nat -> Import k self file ts ms = Ok (m, links, r)) /\ look (mods r) (nth 0 (modnames g) []) n = Some (mkobj External (KTyp (TS s))) /\
    forall k adr l, PutPtrOffsets (info_g g) k (TS i) adr = Ok l -> PutPtrOffsets (info_c (tys r)) k (TS s) adr = Ok l.
Proof.
  intros g H self K ts ms fuel links file n i WF HID PL TOT LK CL EX J. destruct (import_ok g H self K ts ms fuel links file WF HID TOT LK CL EX) as (N & m & r & rho & P & S).
  destruct (s_objects _ _ _ _ _ _ _ _ _ S n _ J ltac:(discriminate)) as (o' & L & V & KC). cbn [okind ovis] in *. unfold kcorr in KC. destruct o' as [v k']. cbn [okind ovis] in *. subst v.
  destruct k' as [| t' | |]; try contradiction. destruct KC as (s & R & ->). exists N, m, r, s. split; [exact P |]. split; [exact L |].
  intros k adr l. apply (C63_client_offsets g H K ts ms (tys r) (mods r) m rho (tys r) WF HID PL S (fun _ _ e => e) i s k R).
Qed.
Print Assumptions C63_export_import.

(** The record R of the case of C62, with the exported pointer of its base type and a hidden one, has the offsets 0 and 16. *)
Lemma plainM : plain_hidden Case.gM.
Proof.
  intros i. Case.types i; cbn; intros base al n fs ps f E J V; inversion E; subst; cbn in J; repeat destruct J as [<- | J]; try discriminate; try contradiction.
  apply P_named; [discriminate |]. cbn. apply (P_pointer _ _ (TS 0)); reflexivity.
Qed.
Example C63_case : exists N m r s, (forall k, (N <= k)%nat -> Import k Case.self Case.fM [] [] = Ok (m, [], r)) /\ look (mods r) [77] Case.nR = Some (mkobj External (KTyp (TS s))) /\
  PutPtrOffsets (info_c (tys r)) 9 (TS s) 100 = Ok [100; 116].
Proof.
  destruct (C63_export_import Case.gM Case.HM Case.self (fun _ => None) [] [] 50 [] Case.fM Case.nR 0) as (N & m & r & s & P & L & Q).
  - apply Case.wfM.
  - apply Case.hidM.
  - apply plainM.
  - cbn. discriminate.
  - constructor.
  - constructor; try discriminate; auto; [Case.notin | cbn; lia | constructor | intros [| k]; discriminate].
  - vm_compute. reflexivity.
  - cbn. auto.
  - exists N, m, r, s. split; [exact P |]. split; [exact L |]. apply Q. reflexivity.
Qed.

(** ** What does not hold: [plain_hidden] is needed

    R = RECORD x*: INTEGER; h: E END; E = RECORD (B) END; B = RECORD p: POINTER TO B END: OutHdFld passes over the fields of E's base type, so the hidden pointer at 8 is
    missing in the client's descriptors, and the collector can free what it points to. *)
Definition gD := mkgraph
  [ mkstr 0 [82] 0 16 (Rec None 8 0 [mkfld [120] External (TInt 8) 0; mkfld [104] Internal (TS 1) 8] []);
    mkstr 0 [69] 0 8 (Rec (Some (TS 2)) 8 0 [] []);
    mkstr 0 [66] 0 8 (Rec None 8 0 [mkfld [112] Internal (TS 3) 0] []);
    mkstr 0 [] 0 8 (Pointer (TS 2)) ] [[77]]
  [ ([82], mkobj External (KTyp (TS 0))) ].
Theorem C63_hidden_extension_refuted : exists file r, Export gD 50 [] = Ok file /\ Import 50 [90] file [] [] = Ok (0%nat, [], r) /\
  look (mods r) [77] [82] = Some (mkobj External (KTyp (TS 0))) /\ PutPtrOffsets (info_g gD) 9 (TS 0) 0 = Ok [8] /\ PutPtrOffsets (info_c (tys r)) 9 (TS 0) 0 = Ok [].
Proof. do 2 eexists. split; [vm_compute; reflexivity |]. split; [vm_compute; reflexivity |]. repeat split. Qed.
Print Assumptions C63_hidden_extension_refuted.
(** R = RECORD x*: INTEGER; h: POINTER [1] TO R END: a hidden pointer that is not traced (for storage outside the heap) is traced by the client's descriptors. *)
Definition gU := mkgraph
  [ mkstr 0 [82] 0 16 (Rec None 8 0 [mkfld [120] External (TInt 8) 0; mkfld [104] Internal (TS 1) 8] []);
    mkstr 0 [] 1 8 (Pointer (TS 0)) ] [[77]]
  [ ([82], mkobj External (KTyp (TS 0))) ].
Theorem C63_hidden_untraced_refuted : exists file r, Export gU 50 [] = Ok file /\ Import 50 [90] file [] [] = Ok (0%nat, [], r) /\
  look (mods r) [77] [82] = Some (mkobj External (KTyp (TS 0))) /\ PutPtrOffsets (info_g gU) 9 (TS 0) 0 = Ok [] /\ PutPtrOffsets (info_c (tys r)) 9 (TS 0) 0 = Ok [8].
Proof. do 2 eexists. split; [vm_compute; reflexivity |]. split; [vm_compute; reflexivity |]. repeat split. Qed.
Print Assumptions C63_hidden_untraced_refuted.
