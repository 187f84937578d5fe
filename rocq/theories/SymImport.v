(** Symbol files: the objects, and the whole file. *)
From Verif Require Import Base SymModel SymBytes SymSpec SymCount SymSim.

Section Imp.
Variable g : graph.
Variable H : fld -> list Z.
Variable self : name.
Variable K : nat -> option nat.
Variable Un : list name.
Variable L0 : nat.
Hypothesis WF : wf g H.
Hypothesis HID : forall i base al n fs ps f, sshape (str_of g i) = Rec base al n fs ps -> In f fs -> fvis f = Internal -> hidden_ptrs g f (H f).
Hypothesis KN : forall i, K i <> None -> sname (str_of g i) <> [].
Hypothesis UnN : (length Un <= 64)%nat.
Hypothesis UnG : incl (modnames g) Un.
Hypothesis NotSelf : ~ In self (modnames g).
Local Notation sname_ i := (sname (str_of g i)).
Local Notation M0 := (nth 0 (modnames g) []).
Local Notation sim := (SymSim.sim g K Un L0).
Local Notation step := (SymSim.step g H).
Local Notation std := (SymSim.std g).
Local Notation none := (fun _ : nat => False).

Lemma kcorr_mono : forall rho rho' k k', (forall i s, rho i = Some s -> rho' i = Some s) -> kcorr rho k k' -> kcorr rho' k k'.
Proof.
  intros rho rho' k k' M. unfold kcorr. destruct k as [c | t | t | p s]; destruct k' as [c' | t' | t' | p' s']; auto; try apply (tcorr_mono _ _ _ _ M).
  intros [A B]. split; [exact A | apply (scorr_mono _ _ _ _ M B)].
Qed.
Lemma early_none : forall t, early g none t.
Proof. intros t e j []. Qed.
Lemma mod0 : forall i, modname g i = M0 -> smno (str_of g i) = 0%nat.
Proof.
  intros i E. pose proof (wf_smno _ _ WF i) as L. destruct (wf_mods _ _ WF) as [D _]. apply (proj1 (NoDup_nth (modnames g) []) D); [exact L | lia | exact E].
Qed.
Lemma mod0_name : forall i, smno (str_of g i) = 0%nat -> modname g i = M0.
Proof. intros i E. unfold modname. rewrite E. reflexivity. Qed.

(** The state before, and after the objects [done]. *)
Variable r0 : rd.
Variable m : nat.
Record inv (done : list (name * obj)) (w : wst) (r : rd) (rho : rtype) : Prop := mkinv {
  i_sim : sim w r rho (std None none rho);
  i_done : forall n o, In (n, o) done -> ovis o <> Internal -> exists o', lookup r M0 n = Some o' /\ ovis o' = ovis o /\ kcorr rho (okind o) (okind o');
  i_inv : forall n o', n <> [] -> lookup r M0 n = Some o' -> (exists o, In (n, o) done /\ ovis o <> Internal /\ ovis o' = ovis o) \/ (ovis o' = Internal /\ exists i, sname_ i = n /\ modname g i = M0);
  i_keep : forall mn n o, mn <> M0 -> n <> [] -> lookup r0 mn n = Some o -> lookup r mn n = Some o;
  i_other : forall mn n o, mn <> M0 -> n <> [] -> lookup r mn n = Some o -> lookup r0 mn n = Some o \/ (ovis o = Internal /\ exists i, rho i <> None /\ mn = modname g i /\ n = sname_ i);
  i_types : forall i s, rho i = Some s -> exists x, nth_error (tys r) s = Some x /\ corr g H rho (mname r) i x;
  i_frame : forall s x, nth_error (tys r0) s = Some x -> (forall i, rho i <> Some s) -> nth_error (tys r) s = Some x;
  i_mname : forall k n, mname r0 k = Some n -> mname r k = Some n;
  i_mod : midx r M0 = Some m }.

Lemma inv_step : forall done w r rho w' r' rho', Forall (fun no => fst no <> []) done -> inv done w r rho -> sim w' r' rho' (std None none rho') -> step none r rho None r' rho' -> inv done w' r' rho'.
Proof.
  intros done w r rho w' r' rho' DN [A1 A2 A3 A4 A5 A6 A7 A8 A9] S ST. rewrite Forall_forall in DN. constructor; auto.
  - intros n o J V. destruct (A2 n o J V) as (o' & L & V' & C). exists o'. split; [apply (p_look _ _ _ _ _ _ _ _ ST); [apply (DN _ J) | exact L] |]. split; [exact V' | apply (kcorr_mono _ _ _ _ (p_rho _ _ _ _ _ _ _ _ ST) C)].
  - intros n o' D L. destruct (p_inv _ _ _ _ _ _ _ _ ST _ _ _ D L) as [L9 | (V & i & R1 & R2 & E1 & E2)]; [apply (A3 _ _ D L9) |]. right. split; [exact V |]. exists i. auto.
  - intros mn n o D1 D2 L. apply (p_look _ _ _ _ _ _ _ _ ST); auto.
  - intros mn n o D1 D2 L. destruct (p_inv _ _ _ _ _ _ _ _ ST _ _ _ D2 L) as [L9 | (V & i & R1 & R2 & E1 & E2)].
    + destruct (A5 _ _ _ D1 D2 L9) as [L1 | (V & i & R1 & E1 & E2)]; [left; exact L1 |]. right. split; [exact V |]. exists i. conjs; auto. destruct (rho i) as [s |] eqn:R; [| contradiction]. rewrite (p_rho _ _ _ _ _ _ _ _ ST _ _ R). discriminate.
    + right. split; [exact V |]. exists i. auto.
  - intros i s R. destruct (rho i) as [s0 |] eqn:R0.
    + pose proof (p_rho _ _ _ _ _ _ _ _ ST _ _ R0) as R1. rewrite R in R1. inversion R1; subst s0. destruct (A6 _ _ R0) as (x & N & C). exists x. split.
      * apply (p_frame _ _ _ _ _ _ _ _ ST s x N (fun f => f)). intros j J. rewrite (ts_inj _ _ _ _ _ _ _ (sim_t _ _ _ _ _ _ _ _ S) j i s J R). exact R0.
      * apply (corr_mono _ _ _ _ _ _ _ _ (p_rho _ _ _ _ _ _ _ _ ST) (p_mname _ _ _ _ _ _ _ _ ST) C).
    + apply (p_new _ _ _ _ _ _ _ _ ST i s R0 R (fun f => f)).
  - intros s x N NR. assert (N1 : nth_error (tys r) s = Some x) by (apply A7; [exact N | intros i R; apply (NR i), (p_rho _ _ _ _ _ _ _ _ ST), R]).
    apply (p_frame _ _ _ _ _ _ _ _ ST s x N1 (fun f => f)). intros i R. exfalso. apply (NR i R).
  - intros k n L. apply (p_mname _ _ _ _ _ _ _ _ ST), A8, L.
  - apply (p_midx _ _ _ _ _ _ _ _ ST), A9.
Qed.
Lemma inv_same : forall done w r rho r', inv done w r rho -> tys r' = tys r -> mods r' = mods r -> nofr r' = nofr r -> refs r' = refs r -> nofm r' = nofm r -> glb r' = glb r -> inv done w r' rho.
Proof.
  intros done w r rho r' [A1 A2 A3 A4 A5 A6 A7 A8 A9] E1 E2 E3 E4 E5 E6. destruct (lookup_mods r r' E2) as (L1 & L2 & L3). constructor.
  - revert A1. apply sim_same; assumption.
  - intros n o J V. rewrite L1. apply (A2 n o J V).
  - intros n o' D. rewrite L1. apply (A3 n o' D).
  - intros mn n o D1 D2. rewrite L1. apply (A4 mn n o D1 D2).
  - intros mn n o D1 D2. rewrite L1. apply (A5 mn n o D1 D2).
  - intros i s R. rewrite E1. destruct (A6 i s R) as (x & N & C). exists x. split; [exact N |]. revert C. apply corr_mono; [auto |]. intros k n. rewrite L3. auto.
  - rewrite E1. exact A7.
  - intros k n. rewrite L3. apply A8.
  - rewrite L2. exact A9.
Qed.
(** [set_mods] keeps everything but the trees. *)
Lemma sim_mods : forall w r rho P ms, sim w r rho P -> modsim g Un w (set_mods r ms) -> (forall n, midx (set_mods r ms) n = midx r n) ->
  (forall i, sname_ i <> [] -> match lookup r (modname g i) (sname_ i) with
                               | Some o => exists o', lookup (set_mods r ms) (modname g i) (sname_ i) = Some o' /\ okind o' = okind o
                               | None => lookup (set_mods r ms) (modname g i) (sname_ i) = None end) -> sim w (set_mods r ms) rho P.
Proof.
  intros w r rho P ms [SM [T1 T2 T3 T4 T5 T6 T7 T8 T9] SB] M X L. constructor; [exact M | | exact SB]. constructor; auto.
  - intros i s R. destruct (T4 i s R) as (x & N & [I1 I2] & PX). exists x. conjs; auto. split; [exact I1 | rewrite X; exact I2].
  - intros i s R KI. destruct (T6 i s R KI) as (x & N & [I1 I2] & PX). exists x. split; [exact N |]. split; [| exact PX]. split; [exact I1 | rewrite X; exact I2].
  - intros i NI. specialize (T8 i NI). specialize (L i NI). destruct (match rho i with Some s => Some s | None => K i end) as [s |].
    + destruct T8 as (o & LO & KO). rewrite LO in L. destruct L as (o' & L' & KO'). exists o'. split; [exact L' | congruence].
    + rewrite T8 in L. exact L.
Qed.
Lemma inv_add : forall done w r rho n o o', inv done w r rho -> lookup r M0 n = None -> n <> AT -> n <> [] -> (forall i, modname g i = M0 -> sname_ i <> n) ->
  ovis o <> Internal -> ovis o' = ovis o -> kcorr rho (okind o) (okind o') ->
  exists r', insert_mod m n n o' r = Ok (None, r') /\ inp r' = inp r /\ eof r' = eof r /\ inv (done ++ [(n, o)]) w r' rho.
Proof.
  intros done w r rho n o o' [A1 A2 A3 A4 A5 A6 A7 A8 A9] LN NA NE NT V V' C.
  destruct (insert_named g Un w r m M0 n o' (sim_m _ _ _ _ _ _ _ _ A1) A9 NA) as (ms & B1 & B2 & B3 & B4 & B5). rewrite LN in B1. exists (set_mods r ms). split; [exact B1 |]. split; [reflexivity |]. split; [reflexivity |].
  constructor.
  - apply sim_mods; auto. intros i NI. rewrite B5. destruct (lookup r (modname g i) (sname_ i)) as [oo |]; [exists oo; auto |].
    destruct (list_eq_dec Z.eq_dec (modname g i) M0) as [E1 |]; [| reflexivity]. destruct (list_eq_dec Z.eq_dec (sname_ i) n) as [E2 |]; [exfalso; apply (NT i E1 E2) | reflexivity].
  - intros n1 o1 J V1. apply in_app_or in J as [J | [J | []]].
    + destruct (A2 _ _ J V1) as (o2 & L2 & V2 & C2). exists o2. rewrite B5, L2. auto.
    + inversion J; subst n1 o1. exists o'. rewrite B5, LN. destruct (list_eq_dec Z.eq_dec M0 M0); [| contradiction]. destruct (list_eq_dec Z.eq_dec n n); [| contradiction]. auto.
  - intros n1 o1 D L. rewrite B5 in L. destruct (lookup r M0 n1) as [o2 |] eqn:L2.
    + inversion L; subst o2. destruct (A3 _ _ D L2) as [(o3 & J & V3 & E3) | Q]; [left; exists o3; conjs; apply in_or_app; auto | right; exact Q].
    + destruct (list_eq_dec Z.eq_dec M0 M0); [| contradiction]. destruct (list_eq_dec Z.eq_dec n1 n) as [-> |]; [| discriminate]. inversion L; subst o1. left. exists o. conjs. apply in_or_app. right. left. reflexivity.
  - intros mn n1 o1 D1 D2 L. rewrite B5, (A4 _ _ _ D1 D2 L). reflexivity.
  - intros mn n1 o1 D1 D2 L. rewrite B5 in L. destruct (lookup r mn n1) as [o2 |] eqn:L2; [inversion L; subst o2; apply (A5 _ _ _ D1 D2 L2) |]. destruct (list_eq_dec Z.eq_dec mn M0); [contradiction | discriminate].
  - intros i s R. destruct (A6 i s R) as (x & N & CC). exists x. split; [exact N |]. revert CC. apply corr_mono; [auto |]. intros k q. rewrite B4. auto.
  - exact A7.
  - intros k q. rewrite B4. apply A8.
  - rewrite B3. exact A9.
Qed.
Lemma inv_vis : forall done w r rho i s x n o, inv done w r rho -> rho i = Some s -> nth_error (tys r) s = Some x -> modname g i = M0 -> sname_ i = n -> n <> AT -> n <> [] -> ~ In n (map fst done) ->
  ovis o = External -> okind o = KTyp (TS i) ->
  exists r' mn tr, nth_error (mods r) (imno x) = Some (mn, tr) /\ r' = set_mods r (upd_nth (mods r) (imno x) (mn, set_vis (iname x) tr)) /\ inv (done ++ [(n, o)]) w r' rho.
Proof.
  intros done w r rho i s x n o [A1 A2 A3 A4 A5 A6 A7 A8 A9] R N EM EN NA NE ND V KO.
  destruct (ts_slot _ _ _ _ _ _ _ (sim_t _ _ _ _ _ _ _ _ A1) _ _ R) as (x0 & N0 & [I1 I2] & _). rewrite N in N0. inversion N0; subst x0. clear N0. rewrite EM, A9 in I2. inversion I2 as [IM]. clear I2.
  destruct (midx_nth _ _ _ A9) as (tr & NM). rewrite EN in I1.
  pose proof (ts_name _ _ _ _ _ _ _ (sim_t _ _ _ _ _ _ _ _ A1) i ltac:(congruence)) as TN. rewrite R, EM, EN in TN. destruct TN as (oo & LO & KOO).
  destruct (upd_tree r m M0 tr (set_vis n tr) A9 NM) as (U1 & U2 & U3 & U4 & U5 & U6). rewrite <- IM, I1. exists (set_mods r (upd_nth (mods r) m (M0, set_vis n tr))), M0, tr. split; [exact NM |]. split; [reflexivity |].
  assert (FL : forall mn n1, lookup (set_mods r (upd_nth (mods r) m (M0, set_vis n tr))) mn n1 =
     match lookup r mn n1 with Some o1 => if list_eq_dec Z.eq_dec mn M0 then if list_eq_dec Z.eq_dec n1 n then Some (mkobj External (okind o1)) else Some o1 else Some o1 | None => None end).
  { intros mn n1. rewrite U4. destruct (list_eq_dec Z.eq_dec mn M0) as [-> | D].
    - rewrite U5. rewrite find_set_vis. destruct (find n1 tr); [| reflexivity]. destruct (list_eq_dec Z.eq_dec n1 n); reflexivity.
    - destruct (lookup r mn n1); reflexivity. }
  constructor.
  - apply sim_mods; auto.
    + destruct (sim_m _ _ _ _ _ _ _ _ A1) as [MA MB MC MD ME]. constructor; auto.
      * intros k q W. destruct (MB k q W) as (B & gm & G & X). split; [exact B |]. exists gm. rewrite U1. auto.
      * rewrite U3. exact MC.
      * rewrite U3. exact MD.
      * apply U6; [exact ME |]. rewrite find_set_vis, (ME _ _ _ NM). reflexivity.
    + intros j NJ. rewrite FL. destruct (lookup r (modname g j) (sname_ j)) as [o1 |]; [| reflexivity].
      destruct (list_eq_dec Z.eq_dec (modname g j) M0); [destruct (list_eq_dec Z.eq_dec (sname_ j) n) |]; eexists; (split; [reflexivity | reflexivity]).
  - intros n1 o1 J V1. apply in_app_or in J as [J | [J | []]].
    + destruct (A2 _ _ J V1) as (o2 & L2 & V2 & C2). exists o2. rewrite FL, L2. conjs. destruct (list_eq_dec Z.eq_dec M0 M0); [| reflexivity]. destruct (list_eq_dec Z.eq_dec n1 n) as [-> |]; [| reflexivity].
      exfalso. apply ND. apply in_map_iff. exists (n, o1). auto.
    + inversion J; subst n1 o1. exists (mkobj External (okind oo)). rewrite FL, LO. destruct (list_eq_dec Z.eq_dec M0 M0); [| contradiction]. destruct (list_eq_dec Z.eq_dec n n); [| contradiction]. split; [reflexivity |]. split; [symmetry; exact V |].
      cbn [okind]. rewrite KO, KOO. exists s. auto.
  - intros n1 o1 D L. rewrite FL in L. destruct (lookup r M0 n1) as [o2 |] eqn:L2; [| discriminate]. destruct (list_eq_dec Z.eq_dec M0 M0); [| contradiction]. destruct (list_eq_dec Z.eq_dec n1 n) as [-> | D'].
    + inversion L; subst o1. left. exists o. split; [apply in_or_app; right; left; reflexivity |]. split; [congruence | symmetry; exact V].
    + inversion L; subst o2. destruct (A3 _ _ D L2) as [(o3 & J & V3 & E3) | Q]; [left; exists o3; conjs; apply in_or_app; auto | right; exact Q].
  - intros mn n1 o1 D1 D2 L. rewrite FL, (A4 _ _ _ D1 D2 L). destruct (list_eq_dec Z.eq_dec mn M0); [contradiction | reflexivity].
  - intros mn n1 o1 D1 D2 L. rewrite FL in L. destruct (lookup r mn n1) as [o2 |] eqn:L2; [| discriminate]. destruct (list_eq_dec Z.eq_dec mn M0); [contradiction |]. inversion L; subst o2. apply (A5 _ _ _ D1 D2 L2).
  - intros j t Rj. destruct (A6 j t Rj) as (y & Ny & CC). exists y. split; [exact Ny |]. revert CC. apply corr_mono; [auto |]. intros k q. rewrite U2. auto.
  - exact A7.
  - intros k q. rewrite U2. apply A8.
  - rewrite U1. exact A9.
Qed.

(** ** Objects *)
Lemma SymRCh_ok : forall r c l, inp r = c :: l -> SymRCh r = Ok (c, set_inp r l false).
Proof. intros r c l E. unfold SymRCh. rewrite E. reflexivity. Qed.
Lemma SymRSet_num : forall r v l, inp r = num (wrap_s 64 v) ++ l -> 0 <= v < 2 ^ 64 -> SymRSet r = Ok (v, set_inp r l false).
Proof.
  intros r v l E V. unfold SymRSet. rewrite E, rnum_num by (apply wrap_s_range; lia). replace (wrap_u 64 (wrap_s 64 v)) with v; [reflexivity |]. unfold wrap_u, wrap_s.
  change (2 ^ 64) with 18446744073709551616 in *. change (2 ^ (64 - 1)) with 9223372036854775808. lia.
Qed.
Lemma SymRBytes_ok : forall r bs l, inp r = bs ++ l -> SymRBytes (length bs) r = Ok (bs, set_inp r l false).
Proof.
  intros r bs l E. unfold SymRBytes. rewrite E, firstn_app, Nat.sub_diag, firstn_all, firstn_O, app_nil_r, skipn_app, skipn_all, Nat.sub_diag. cbn [skipn app]. rewrite app_length.
  replace (length bs + length l <? length bs)%nat with false; [reflexivity |]. symmetry. apply Nat.ltb_ge. lia.
Qed.
Lemma InConstant_ok : forall c, ok_const c -> exists tag a, OutConstant c = num tag ++ a /\ 2 <= tag <= 9 /\ forall r l, inp r = a ++ l -> InConstant tag r = Ok (c, set_inp r l false).
Proof.
  intros c OK. destruct c as [v | v | v s | v s | bs | bs | s |]; cbn [OutConstant ok_const] in *.
  - exists 2, [v mod 256]. conjs. intros r l I. unfold InConstant. change (2 =? 2) with true. cbv iota. rewrite (SymRCh_ok r _ l I). cbn [bind]. rewrite Z.mod_small by lia. reflexivity.
  - exists 3, [v mod 256]. conjs. intros r l I. unfold InConstant. change (3 =? 2) with false. change (3 =? 3) with true. cbv iota. rewrite (SymRCh_ok r _ l I). cbn [bind]. rewrite Z.mod_small by lia. reflexivity.
  - exists 4, (num v ++ num s). destruct OK as [V S]. conjs. intros r l I. rewrite <- app_assoc in I. unfold InConstant. change (4 =? 2) with false. change (4 =? 3) with false. change (4 =? 4) with true. cbv iota.
    rewrite (SymRInt_num r v _ I V). cbn [bind]. rewrite (SymRInt_num _ s l); [| reflexivity | apply in_int32; lia]. cbn [bind]. rewrite !set_inp_false. unfold IntType. destruct S as [-> | [-> | [-> | ->]]]; reflexivity.
  - exists 7, (num (wrap_s 64 v) ++ num s). destruct OK as [V S]. conjs. intros r l I. rewrite <- app_assoc in I. unfold InConstant. change (7 =? 2) with false. change (7 =? 3) with false. change (7 =? 4) with false. change (7 =? 7) with true. cbv iota.
    rewrite (SymRSet_num r v _ I V). cbn [bind]. rewrite (SymRInt_num _ s l); [| reflexivity | apply in_int32; lia]. cbn [bind]. rewrite !set_inp_false. unfold SetType. destruct S as [-> | ->]; reflexivity.
  - exists 5, bs. conjs. intros r l I. unfold InConstant. change (5 =? 2) with false. change (5 =? 3) with false. change (5 =? 4) with false. change (5 =? 7) with false. change (5 =? 5) with true. cbv iota. rewrite <- OK, (SymRBytes_ok r bs l I). reflexivity.
  - exists 6, bs. conjs. intros r l I. unfold InConstant. change (6 =? 2) with false. change (6 =? 3) with false. change (6 =? 4) with false. change (6 =? 7) with false. change (6 =? 5) with false. change (6 =? 6) with true. cbv iota. rewrite <- OK, (SymRBytes_ok r bs l I). reflexivity.
  - exists 8, (OutName s). conjs. intros r l I. unfold InConstant. change (8 =? 2) with false. change (8 =? 3) with false. change (8 =? 4) with false. change (8 =? 7) with false. change (8 =? 5) with false. change (8 =? 6) with false. change (8 =? 8) with true. cbv iota. rewrite (SymRName_out r s l I OK). reflexivity.
  - exists 9, []. conjs. intros r l I. cbn [app] in I. unfold InConstant. change (9 =? 2) with false. change (9 =? 3) with false. change (9 =? 4) with false. change (9 =? 7) with false. change (9 =? 5) with false. change (9 =? 6) with false. change (9 =? 8) with false. change (9 =? 9) with true. cbv iota. rewrite set_inp_false, <- I. destruct r; reflexivity.
Qed.

Lemma objs_unique : forall n o o', In (n, o) (objects g) -> In (n, o') (objects g) -> o = o'.
Proof.
  intros n o o'. pose proof (wf_nodup _ _ WF) as D. revert D. induction (objects g) as [| [n1 o1] l IH]; intros D A B; [destruct A |]. cbn [map fst] in D. apply NoDup_cons_iff in D as [D1 D2].
  destruct A as [A | A]; destruct B as [B | B]; [congruence | | | apply (IH D2 A B)].
  - inversion A; subst. exfalso. apply D1. apply in_map_iff. exists (n, o'). auto.
  - inversion B; subst. exfalso. apply D1. apply in_map_iff. exists (n, o). auto.
Qed.
Lemma fresh : forall done n o os w r rho, inv done w r rho -> done ++ (n, o) :: os = objects g -> n <> [] -> (forall i v, o = mkobj v (KTyp (TS i)) -> smno (str_of g i) = 0%nat -> sname_ i <> n) ->
  lookup r M0 n = None /\ (forall i, modname g i = M0 -> sname_ i <> n) /\ ~ In n (map fst done).
Proof.
  intros done n o os w r rho I E NE OWN.
  assert (IN : In (n, o) (objects g)) by (rewrite <- E; apply in_or_app; right; left; reflexivity).
  assert (NT : forall i, modname g i = M0 -> sname_ i <> n).
  { intros i EM EN. pose proof (mod0 i EM) as Z0. destruct (wf_own _ _ WF i Z0 ltac:(congruence)) as (v & J). rewrite EN in J. apply (OWN i v (objs_unique _ _ _ IN J) Z0 EN). }
  assert (ND : ~ In n (map fst done)).
  { pose proof (wf_nodup _ _ WF) as D. rewrite <- E, map_app in D. cbn [map fst] in D. apply NoDup_remove_2 in D. intros J. apply D. apply in_or_app. left. exact J. }
  conjs; auto. destruct (lookup r M0 n) as [o' |] eqn:L; [| reflexivity]. exfalso. destruct (i_inv _ _ _ _ I n o' NE L) as [(o1 & J & _) | (_ & i & E1 & E2)]; [| apply (NT i E2 E1)].
  apply ND. apply in_map_iff. exists (n, o1). auto.
Qed.
Lemma good_next : forall w w', good g H w -> 0 <= wcnt w' -> wcnt w' + U g H w' <= wcnt w + U g H w -> good g H w'.
Proof. intros w w' [A B] C D. split; lia. Qed.

Lemma own_name_true : forall n t, own_name g n t = true -> exists i, t = TS i /\ smno (str_of g i) = 0%nat /\ sname_ i = n.
Proof. intros n [z | z | z | i] E; try discriminate. cbn [own_name] in E. apply andb_prop in E as [A B]. apply Nat.eqb_eq in A. exists i. destruct (list_eq_dec Z.eq_dec n (sname_ i)); [auto | discriminate]. Qed.
Lemma names_done : forall done os, done ++ os = objects g -> Forall (fun no : name * obj => fst no <> []) done.
Proof.
  intros done os E. apply Forall_forall. intros no J. pose proof (wf_objs _ _ WF) as F. rewrite Forall_forall in F. destruct (F no) as [(A & _) _]; [rewrite <- E; apply in_or_app; auto | exact A].
Qed.
(** The end of InObj: name and insertion. *)
Lemma insert_ok : forall done n o o' os w r rho rest, inv done w r rho -> done ++ (n, o) :: os = objects g -> ok_name n -> (forall i v, o = mkobj v (KTyp (TS i)) -> smno (str_of g i) = 0%nat -> sname_ i <> n) ->
  ovis o <> Internal -> ovis o' = ovis o -> kcorr rho (okind o) (okind o') -> inp r = OutName n ++ rest ->
  exists r', (let* (n, r) := SymRName r in let* (_, r) := insert_mod m n n o' r in Ok r) = Ok r' /\ inp r' = rest /\ eof r' = eof r /\ inv (done ++ [(n, o)]) w r' rho.
Proof.
  intros done n o o' os w r rho rest I E ON OWN V V' C IN. pose proof (SymRName_out r n rest IN (proj1 (proj2 ON))) as Q. match type of Q with _ = Ok (_, ?z) => set (r1 := z) in * end.
  assert (I1 : inv done w r1 rho) by (unfold r1; rewrite set_inp_false; revert I; intros I; apply (inv_same _ _ _ _ _ I); reflexivity).
  destruct (fresh _ _ _ _ _ _ _ I1 E (proj1 ON) OWN) as (L & NT & _).
  destruct (inv_add done w r1 rho n o o' I1 L (ok_name_AT _ ON) (proj1 ON) NT V V' C) as (r2 & P & I2 & E2 & J). exists r2. conjs.
  - rewrite Q. cbn [bind]. rewrite P. reflexivity.
  - rewrite E2. unfold r1. rewrite set_inp_false. reflexivity.
Qed.
Lemma InObj_ok : forall f n o os w a w1 done, OutOne g f n o w = Ok (a, w1) -> ovis o <> Internal -> ok_name n -> ok_obj o -> good g H w -> done ++ (n, o) :: os = objects g ->
  exists tag a', a = num tag ++ a' /\ in_int 32 tag /\ good g H w1 /\ forall r rho rest, inp r = a' ++ rest -> inv done w r rho ->
    exists N r' rho', (forall k, (N <= k)%nat -> InObj k self m tag r = Ok r') /\ inp r' = rest /\ eof r' = eof r /\ inv (done ++ [(n, o)]) w1 r' rho'.
Proof.
  intros f n o os w a w1 done OUT V ON OK GW E.
  assert (DN := names_done _ _ E).
  pose proof (reads_all g H self K Un L0 WF KN UnN UnG NotSelf f) as RD.
  unfold OutOne in OUT. unfold ok_obj in OK. destruct (okind o) as [c | t | t | p sg] eqn:KO.
  - assert (OUT' : Ok (OutConstant c ++ OutName n, w) = Ok (a, w1)) by (destruct (ovis o); [contradiction | exact OUT | exact OUT]). apply Ok_pair in OUT' as [<- <-]. destruct OK as [VR OK].
    destruct (InConstant_ok c OK) as (tag & a' & EC & TB & RC). exists tag, (a' ++ OutName n). rewrite EC, <- app_assoc. conjs; [apply in_int32; lia |].
    intros r rho rest I INV. rewrite <- app_assoc in I. specialize (RC r _ I). set (r1 := set_inp r (OutName n ++ rest) false) in *.
    assert (INV1 : inv done w r1 rho) by (unfold r1; rewrite set_inp_false; apply (inv_same _ _ _ _ _ INV); reflexivity).
    destruct (insert_ok done n o (mkobj External (KCon c)) os w r1 rho rest INV1 E ON) as (r2 & P & I2 & E2 & J); auto.
    { intros i v ->. cbn [okind] in KO. discriminate. }
    { cbn [ovis]. destruct (ovis o); congruence. }
    { rewrite KO. reflexivity. }
    exists 0%nat, r2, rho. conjs.
    + intros k _. unfold InObj. replace (tag =? 19) with false by lia. replace (tag <=? 11) with true by lia. cbv iota. rewrite RC. cbn [bind]. exact P.
    + rewrite E2. unfold r1. rewrite set_inp_false. reflexivity.
  - destruct OK as [VR OK].
    assert (OUT' : (let* (b, w1) := OutStr g f t w in if own_name g n t then Ok (num 19 ++ b, w1) else Ok (num 20 ++ b ++ OutName n, w1)) = Ok (a, w1)) by (destruct (ovis o); [contradiction | exact OUT | exact OUT]). clear OUT.
    destruct (OutStr g f t w) as [[b w2] | | |] eqn:OS; try discriminate. cbn [bind] in OUT'. destruct (OutStr_agree g H WF HID f t w b w2 GW OS) as (OS' & C1 & C2). pose proof (good_next w w2 GW C1 C2) as GW2.
    destruct (own_name g n t) eqn:OWN.
    + apply Ok_pair in OUT' as [<- <-]. destruct (own_name_true _ _ OWN) as (i & -> & Z0 & EN). exists 19, b. conjs; [apply in_int32; lia |].
      intros r rho rest I INV. destruct (RD _ _ _ _ OS' rho None none r None rest I (i_sim _ _ _ _ INV) OK (early_none _) eq_refl) as (N & r1 & rho1 & t' & P1 & I1 & TC & S1 & ST1). cbn [option_map] in ST1.
      pose proof (inv_step _ _ _ _ _ _ _ DN INV S1 ST1) as INV1. destruct TC as (s & R & ->). destruct (ts_slot _ _ _ _ _ _ _ (sim_t _ _ _ _ _ _ _ _ S1) _ _ R) as (x & Nx & _).
      assert (ND : ~ In n (map fst done)).
      { pose proof (wf_nodup _ _ WF) as D. rewrite <- E, map_app in D. cbn [map fst] in D. apply NoDup_remove_2 in D. intros J. apply D. apply in_or_app. left. exact J. }
      destruct (inv_vis done w2 r1 rho1 i s x n o INV1 R Nx (mod0_name i Z0) EN (ok_name_AT _ ON) (proj1 ON) ND) as (r2 & mn & tr & NM & -> & INV2).
      { destruct (ovis o); congruence. } { exact KO. }
      eexists N, _, rho1. split; [| split; [| split; [| exact INV2]]].
      * intros k L. unfold InObj. change (19 =? 19) with true. cbv iota. rewrite P1 by exact L. cbn [bind]. unfold slot. rewrite Nx. cbn [bind]. rewrite NM. reflexivity.
      * exact I1.
      * apply (p_eof _ _ _ _ _ _ _ _ ST1).
    + apply Ok_pair in OUT' as [<- <-]. exists 20, (b ++ OutName n). conjs; [apply in_int32; lia |].
      intros r rho rest I INV. rewrite <- app_assoc in I. destruct (RD _ _ _ _ OS' rho None none r None _ I (i_sim _ _ _ _ INV) OK (early_none _) eq_refl) as (N & r1 & rho1 & t' & P1 & I1 & TC & S1 & ST1). cbn [option_map] in ST1.
      pose proof (inv_step _ _ _ _ _ _ _ DN INV S1 ST1) as INV1.
      destruct (insert_ok done n o (mkobj External (KTyp t')) os w2 r1 rho1 rest INV1 E ON) as (r2 & P & I2 & E2 & J); auto.
      { intros i v -> Z0 EN. cbn [okind] in KO. inversion KO; subst t. cbn [own_name] in OWN. rewrite Z0, Nat.eqb_refl in OWN. destruct (list_eq_dec Z.eq_dec n (sname_ i)); [discriminate | congruence]. }
      { cbn [ovis]. destruct (ovis o); congruence. }
      { rewrite KO. exact TC. }
      exists N, r2, rho1. conjs.
      * intros k L. unfold InObj. change (20 =? 19) with false. change (20 <=? 11) with false. change (20 >=? 31) with false. change (20 =? 20) with true. cbv iota. rewrite P1 by exact L. cbn [bind]. exact P.
      * rewrite E2. apply (p_eof _ _ _ _ _ _ _ _ ST1).
  - assert (OUT' : exists v, (v = 21 \/ v = 22) /\ (v = 22 <-> ovis o = ReadOnly) /\ (let* (b, w1) := OutStr g f t w in Ok (num v ++ b ++ OutName n, w1)) = Ok (a, w1)).
    { destruct (ovis o); [contradiction | exists 21 | exists 22]; conjs; split; congruence. }
    destruct OUT' as (v & VB & VV & OUT'). clear OUT.
    destruct (OutStr g f t w) as [[b w2] | | |] eqn:OS; try discriminate. cbn [bind] in OUT'. destruct (OutStr_agree g H WF HID f t w b w2 GW OS) as (OS' & C1 & C2). pose proof (good_next w w2 GW C1 C2) as GW2.
    apply Ok_pair in OUT' as [<- <-]. exists v, (b ++ OutName n). conjs; [apply in_int32; lia |].
    intros r rho rest I INV. rewrite <- app_assoc in I. destruct (RD _ _ _ _ OS' rho None none r None _ I (i_sim _ _ _ _ INV) OK (early_none _) eq_refl) as (N & r1 & rho1 & t' & P1 & I1 & TC & S1 & ST1). cbn [option_map] in ST1.
    pose proof (inv_step _ _ _ _ _ _ _ DN INV S1 ST1) as INV1.
    destruct (insert_ok done n o (mkobj (if v =? 22 then ReadOnly else External) (KVar t')) os w2 r1 rho1 rest INV1 E ON) as (r2 & P & I2 & E2 & J); auto.
    { intros i vv ->. cbn [okind] in KO. discriminate. }
    { cbn [ovis]. destruct (Z.eqb_spec v 22) as [Q | Q]; [apply VV in Q; congruence |]. destruct (ovis o); [contradiction | reflexivity | exfalso; apply Q, VV; reflexivity]. }
    { rewrite KO. exact TC. }
    exists N, r2, rho1. conjs.
    + intros k L. unfold InObj. replace (v =? 19) with false by lia. replace (v <=? 11) with false by lia. replace (v >=? 31) with false by lia. replace (v =? 20) with false by lia. cbv iota. rewrite P1 by exact L. cbn [bind]. exact P.
    + rewrite E2. apply (p_eof _ _ _ _ _ _ _ _ ST1).
  - destruct OK as (VR & OS_ & OP).
    assert (OUT' : (let* (b, w1) := OutSign (OutStr g f) sg w in
          match p with
          | PX => Ok (num 31 ++ b ++ OutName n, w1)
          | PI => Ok (num 32 ++ b ++ OutName n, w1)
          | PC code => Ok (num 33 ++ b ++ num (Zlength code) ++ code ++ OutName n, w1)
          end) = Ok (a, w1)) by (destruct (ovis o); [contradiction | exact OUT | exact OUT]). clear OUT.
    destruct (OutSign (OutStr g f) sg w) as [[b w2] | | |] eqn:OS; try discriminate. cbn [bind] in OUT'. destruct (OutSign_agree g H _ _ (OutStr_agree g H WF HID f) sg w b w2 GW OS) as (OS' & C1 & C2). pose proof (good_next w w2 GW C1 C2) as GW2.
    assert (OUT2 : exists tag c, a = num tag ++ b ++ c ++ OutName n /\ w2 = w1 /\ 31 <= tag <= 33 /\ c = match p with PC code => num (Zlength code) ++ code | _ => [] end /\ tag = match p with PX => 31 | PI => 32 | PC _ => 33 end).
    { destruct p as [| | code]; apply Ok_pair in OUT' as [<- <-]; eexists _, _; (split; [| split; [reflexivity | split; [| split; reflexivity]]]); try lia; try reflexivity. rewrite <- !app_assoc. reflexivity. }
    destruct OUT2 as (tag & c & -> & -> & TB & EC & ET). exists tag, (b ++ c ++ OutName n). conjs; [apply in_int32; lia |].
    intros r rho rest I INV. rewrite <- !app_assoc in I.
    destruct (InSign_ok g H self K Un L0 KN UnN f RD sg w b w1 rho none r None _ OS' I (i_sim _ _ _ _ INV) OS_ (fun t _ => early_none t) eq_refl) as (N & r1 & rho1 & sg' & P1 & I1 & SC & S1 & ST1). cbn [option_map] in ST1.
    pose proof (inv_step _ _ _ _ _ _ _ DN INV S1 ST1) as INV1.
    set (r1' := set_inp r1 (OutName n ++ rest) false).
    assert (INV1' : inv done w1 r1' rho1) by (unfold r1'; rewrite set_inp_false; apply (inv_same _ _ _ _ _ INV1); reflexivity).
    destruct (insert_ok done n o (mkobj External (KProc p sg')) os w1 r1' rho1 rest INV1' E ON) as (r2 & P & I2 & E2 & J); auto.
    { intros i vv ->. cbn [okind] in KO. discriminate. }
    { cbn [ovis]. destruct (ovis o); congruence. }
    { rewrite KO. split; [reflexivity | exact SC]. }
    exists N, r2, rho1. conjs.
    + intros k L. unfold InObj. replace (tag =? 19) with false by lia. replace (tag <=? 11) with false by lia. replace (tag >=? 31) with true by lia. cbv iota. rewrite P1 by lia. cbn [bind].
      destruct p as [| | code].
      * subst tag c. cbn [app] in I1. change (31 =? 31) with true. cbv iota. cbn [bind]. replace r1 with r1' by (unfold r1'; rewrite set_inp_false, <- I1; destruct r1; reflexivity). exact P.
      * subst tag c. cbn [app] in I1. change (32 =? 31) with false. change (32 =? 32) with true. cbv iota. cbn [bind]. replace r1 with r1' by (unfold r1'; rewrite set_inp_false, <- I1; destruct r1; reflexivity). exact P.
      * subst tag c. rewrite <- !app_assoc in I1. change (33 =? 31) with false. change (33 =? 32) with false. change (33 =? 33) with true. cbv iota. rewrite Zlength_correct in I1.
        rewrite (SymRInt_num r1 _ _ I1) by (apply in_int32; lia). cbn [bind]. rewrite wrap_s_id by (try apply in_int16; lia). rewrite Nat2Z.id.
        rewrite (SymRBytes_ok _ code (OutName n ++ rest)) by reflexivity. cbn [bind].
        match goal with |- (let* (n, r) := SymRName ?z in _) = _ => replace z with r1' by (unfold r1'; rewrite !set_inp_false; reflexivity) end. exact P.
    + rewrite E2. unfold r1'. rewrite set_inp_false. apply (p_eof _ _ _ _ _ _ _ _ ST1).
Qed.

Lemma InObjs_ok : forall f os w bs w', OutObjs g f os w = Ok (bs, w') -> forall done r rho, done ++ os = objects g -> good g H w -> inp r = bs -> eof r = false -> inv done w r rho ->
  exists N r' rho', (forall n k, (N <= n)%nat -> (N <= k)%nat -> (let* (tag, r0) := SymRInt r in InObjs n k self m tag r0) = Ok r') /\ inp r' = [] /\ eof r' = true /\ inv (objects g) w' r' rho'.
Proof.
  intros f. induction os as [| [n o] os IH]; intros w bs w' OUT done r rho E GW I EF INV; cbn [OutObjs] in OUT.
  - apply Ok_pair in OUT as [<- <-]. rewrite app_nil_r in E. subst done. exists 1%nat, (set_inp r [] true), rho. conjs.
    + intros k [| j] _ L; [lia |]. unfold SymRInt. rewrite I. cbn [rnum bind InObjs]. cbn [set_inp eof]. rewrite orb_true_r. reflexivity.
    + cbn [set_inp eof]. apply orb_true_r.
    + apply (inv_same _ _ _ _ _ INV); reflexivity.
  - destruct (OutOne g f n o w) as [[a w1] | | |] eqn:O1; try discriminate. cbn [bind] in OUT. destruct (OutObjs g f os w1) as [[b w2] | | |] eqn:O2; try discriminate. cbn [bind] in OUT. apply Ok_pair in OUT as [<- <-].
    assert (E1 : (done ++ [(n, o)]) ++ os = objects g) by (rewrite <- app_assoc; exact E).
    pose proof (wf_objs _ _ WF) as F. rewrite Forall_forall in F. destruct (F (n, o)) as [ON OO]; [rewrite <- E; apply in_or_app; right; left; reflexivity |]. cbn [fst snd] in ON, OO.
    destruct (ovis o) eqn:V.
    + unfold OutOne in O1. rewrite V in O1. apply Ok_pair in O1 as [<- <-]. apply (IH w b w2 O2 (done ++ [(n, o)]) r rho E1 GW I EF).
      destruct INV as [A1 A2 A3 A4 A5 A6 A7 A8 A9]. constructor; auto.
      * intros n1 o1 J V1. apply in_app_or in J as [J | [J | []]]; [apply (A2 _ _ J V1) | inversion J; subst; congruence].
      * intros n1 o1 D L. destruct (A3 _ _ D L) as [(o2 & J & Q) | Q]; [left; exists o2; split; [apply in_or_app; auto | exact Q] | right; exact Q].
    + assert (V' : ovis o <> Internal) by congruence. destruct (InObj_ok f n o os w a w1 done O1 V' ON (OO ltac:(discriminate)) GW E) as (tag & a' & -> & TB & GW1 & P). rewrite <- app_assoc in I.
      pose proof (SymRInt_num r tag _ I TB) as Q. match type of Q with _ = Ok (_, ?z) => set (r1 := z) in * end.
      assert (INV1 : inv done w r1 rho) by (unfold r1; rewrite set_inp_false; apply (inv_same _ _ _ _ _ INV); reflexivity).
      assert (EF1 : eof r1 = false) by (unfold r1; rewrite set_inp_false; exact EF).
      destruct (P r1 rho b eq_refl INV1) as (N1 & r2 & rho2 & P1 & I2 & E2 & INV2).
      destruct (IH w1 b w2 O2 (done ++ [(n, o)]) r2 rho2 E1 GW1 I2 ltac:(congruence) INV2) as (N2 & r3 & rho3 & P2 & I3 & E3 & INV3).
      exists (S (N1 + N2)), r3, rho3. conjs. intros k [| j] L1 L2; [lia |]. rewrite Q. cbn [bind InObjs]. rewrite EF1. rewrite P1 by lia. cbn [bind]. apply P2; lia.
    + assert (V' : ovis o <> Internal) by congruence. destruct (InObj_ok f n o os w a w1 done O1 V' ON (OO ltac:(discriminate)) GW E) as (tag & a' & -> & TB & GW1 & P). rewrite <- app_assoc in I.
      pose proof (SymRInt_num r tag _ I TB) as Q. match type of Q with _ = Ok (_, ?z) => set (r1 := z) in * end.
      assert (INV1 : inv done w r1 rho) by (unfold r1; rewrite set_inp_false; apply (inv_same _ _ _ _ _ INV); reflexivity).
      assert (EF1 : eof r1 = false) by (unfold r1; rewrite set_inp_false; exact EF).
      destruct (P r1 rho b eq_refl INV1) as (N1 & r2 & rho2 & P1 & I2 & E2 & INV2).
      destruct (IH w1 b w2 O2 (done ++ [(n, o)]) r2 rho2 E1 GW1 I2 ltac:(congruence) INV2) as (N2 & r3 & rho3 & P2 & I3 & E3 & INV3).
      exists (S (N1 + N2)), r3, rho3. conjs. intros k [| j] L1 L2; [lia |]. rewrite Q. cbn [bind InObjs]. rewrite EF1. rewrite P1 by lia. cbn [bind]. apply P2; lia.
Qed.
Lemma InLinks_ok : forall links r l, Forall ok_name links -> inp r = concat (map OutName links) ++ [0] ++ l -> forall n, (length links < n)%nat -> InLinks n r = Ok (links, set_inp r l false).
Proof.
  induction links as [| x links IH]; intros r l OK I [| n] L; cbn [length] in L; try lia; cbn [InLinks].
  - cbn [map concat app] in I. rewrite (SymRName_out r [] l I) by (intros []). reflexivity.
  - apply Forall_cons_iff in OK as [(O1 & O2 & _) OK]. cbn [map concat] in I. rewrite <- app_assoc in I. rewrite (SymRName_out r x _ I O2). cbn [bind]. rewrite (IH _ l OK) by (reflexivity || lia). destruct x as [| c x]; [contradiction |].
    cbn [bind]. rewrite !set_inp_false. reflexivity.
Qed.
End Imp.

(** ** The file *)
Theorem import_ok : forall g H self K ts ms fuel links file,
  wf g H -> hiddens g H -> total_hidden g H <= MaxHdFld -> Forall ok_name links -> client g self K ts ms -> Export g fuel links = Ok file ->
  exists N m r rho, (forall n, (N <= n)%nat -> Import n self file ts ms = Ok (m, links, r)) /\ sees g H K ts ms (tys r) (mods r) m rho.
Proof.
  intros g H self K ts ms fuel links file WF HID TOT LK [C1 C2 C3 C4 C5 C6 C7] EX.
  set (Un := nodup (list_eq_dec Z.eq_dec) (map fst ms ++ modnames g)) in *.
  assert (KN : forall i, K i <> None -> sname (str_of g i) <> []).
  { intros i Q. destruct (K i) as [s |] eqn:KI; [| contradiction]. apply (C5 i s KI). }
  assert (UnG : incl (modnames g) Un) by (intros x I; apply nodup_In, in_or_app; auto).
  unfold Export in EX. destruct (OutObjs g fuel (objects g) w0) as [[b w'] | | |] eqn:OO; try discriminate. cbn [bind] in EX. assert (EF : num 16 ++ OutName (nth 0 (modnames g) []) ++ concat (map OutName links) ++ [0] ++ b = file) by congruence. clear EX.
  set (r0 := mkr file false ts ms 14 (fun _ => None) 0 (fun _ => None)).
  set (wi := mkw (fun _ => None) 14 (fun _ => None) 0 0).
  assert (MI : modsim g Un wi r0).
  { constructor; cbn; auto; try lia; try discriminate. intros x I. apply nodup_In, in_or_app. auto. }
  assert (OM : OutMod g 0 wi = Ok (num 16 ++ OutName (nth 0 (modnames g) []), w0)) by reflexivity.
  assert (LM : (0 < length (modnames g))%nat) by (pose proof (wf_smno _ _ WF 0%nat); lia).
  destruct (InMod_ok g H self K Un 0 WF KN C2 UnG C1 wi r0 0%nat _ w0 (concat (map OutName links) ++ [0] ++ b) LM MI OM) as (m & r1 & P1 & I1 & E1 & T1 & N1 & R1 & M1 & X1 & LL & X2 & X3 & _).
  { cbn [r0 inp]. rewrite <- EF, <- !app_assoc. reflexivity. }
  { cbn. lia. }
  set (r2 := set_inp r1 b false).
  assert (IV : inv g H K Un (length ts) r0 m [] w0 r2 (fun _ => None)).
  { constructor.
    - constructor.
      + destruct M1 as [Q1 Q2 Q3 Q4 Q5]. constructor; [exact Q1 | exact Q2 | exact Q3 | exact Q4 | exact Q5].
      + constructor; cbn [r2 set_inp tys mods nofr refs]; try discriminate.
        * rewrite N1. cbn. lia.
        * intros i. cbn. split; reflexivity.
        * intros i s _ KI. destruct (C5 i s KI) as (NE & x & A1 & A2 & A3 & A4). exists x. rewrite T1. split; [exact A1 |]. split; [| exact A4]. split; [exact A2 |]. apply X2, A3.
        * intros i NE. specialize (C6 i NE). change (lookup r2) with (lookup r1). rewrite LL. exact C6.
        * split; [| discriminate]. intros s L. rewrite T1. cbn [r0 tys]. apply nth_error_Some. exact L.
      + cbn. unfold maxStruct. lia.
    - intros n o [].
    - intros n o' NE L. right. change (lookup r2) with (lookup r1) in L. rewrite LL in L. apply (C7 n o' NE L).
    - intros mn n o _ _ L. change (lookup r2) with (lookup r1). rewrite LL. exact L.
    - intros mn n o _ _ L. change (lookup r2) with (lookup r1) in L. rewrite LL in L. left. exact L.
    - discriminate.
    - intros s x N _. cbn [r2 set_inp tys]. rewrite T1. exact N.
    - intros k n L. apply X3, L.
    - exact X1. }
  destruct (InObjs_ok g H self K Un (length ts) WF HID KN C2 UnG C1 r0 m fuel (objects g) w0 b w' OO [] r2 (fun _ => None) eq_refl (good_w0 _ _ TOT) (eq_refl : inp r2 = b)) as (N & r' & rho & P2 & I2 & E2 & [A1 A2 A3 A4 A5 A6 A7 A8 A9]); [cbn [r2 set_inp eof]; rewrite E1; reflexivity | exact IV |].
  exists (S N + length links)%nat, m, r', rho. split.
  - intros n L. change (Import n self file ts ms) with (let* (m, r) := InMod self r0 in let* (links, r) := InLinks n r in let* (tag, r) := SymRInt r in let* r := InObjs n n self m tag r in Ok (m, links, r)). rewrite P1. cbn [bind]. rewrite (InLinks_ok g H K Un HID KN C2 0 links r1 b LK I1 n) by lia. cbn [bind]. fold r2.
    specialize (P2 n n ltac:(lia) ltac:(lia)). destruct (SymRInt r2) as [[tag r3] | | |]; cbn [bind] in P2 |- *; try discriminate. rewrite P2. reflexivity.
  - constructor.
    + exact A9.
    + exact A2.
    + intros n o' NE L V. destruct (A3 n o' NE L) as [(o & J & _ & E) | [V' _]]; [exists o; auto | contradiction].
    + exact A6.
    + apply (ts_inj _ _ _ _ _ _ _ (sim_t _ _ _ _ _ _ _ _ A1)).
    + intros i s R. destruct (K i) as [s' |] eqn:KI.
      * apply (ts_same _ _ _ _ _ _ _ (sim_t _ _ _ _ _ _ _ _ A1) _ _ _ R KI).
      * destruct (proj2 (ts_L _ _ _ _ _ _ _ (sim_t _ _ _ _ _ _ _ _ A1)) _ _ R) as [Q | Q]; [congruence | exact Q].
    + exact A7.
    + intros k [n t] Q. assert (MK : mname r' k = Some n) by (apply A8; unfold mname; cbn [r0 mods]; rewrite Q; reflexivity).
      unfold mname in MK. destruct (nth_error (mods r') k) as [[n' t'] |]; [| discriminate]. inversion MK; subst n'. exists t'. reflexivity.
    + exact A4.
    + exact A5.
    + apply (ts_name _ _ _ _ _ _ _ (sim_t _ _ _ _ _ _ _ _ A1)).
    + apply (ms_nodup _ _ _ _ (sim_m _ _ _ _ _ _ _ _ A1)).
    + apply (ms_at _ _ _ _ (sim_m _ _ _ _ _ _ _ _ A1)).
    + intros x I. apply (ms_incl _ _ _ _ (sim_m _ _ _ _ _ _ _ _ A1)) in I. apply nodup_In in I. exact I.
Qed.
