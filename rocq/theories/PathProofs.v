From Verif Require Import Base ArrZ StringsModel StringsSpec StringsProofs CStrModel CStrProofs PathModel PathSpec.

Lemma zlen_snoc : forall A (p : list A) x, zlen (p ++ [x]) = zlen p + 1.
Proof. intros. rewrite zlen_app, zlen_cons, zlen_nil. lia. Qed.

Lemma CharCount_spec : forall s, CharCount s = Ok (zlen (str_of s)).
Proof.
  intro s. unfold CharCount. apply length_loop_spec; [pose proof (zlen_nonneg _ (str_of s)); lia|unfold zlen; lia].
Qed.

(** The copying loop, in split form. *)
Lemma copyz_spec : forall p fuel sp sr dp dq, ~ In 0 p -> zlen p <= zlen dq -> (length p < fuel)%nat ->
  copyz fuel (sp ++ p ++ 0 :: sr) (zlen sp) (dp ++ dq) (zlen dp) = Ok ((dp ++ p) ++ skipn (length p) dq, zlen dp + zlen p).
Proof.
  induction p as [|c p IH]; intros fuel sp sr dp dq H L F; (destruct fuel as [|fuel]; [cbn [length] in F; lia|]); cbn [copyz].
  - cbn [app]. rewrite getA_at, bind_ok. cbn [Z.eqb length skipn]. rewrite app_nil_r, zlen_nil, Z.add_0_r. reflexivity.
  - cbn [app]. rewrite getA_at, bind_ok. destruct (c =? 0) eqn:E; [exfalso; apply H; left; lia|].
    destruct dq as [|y dq]; [rewrite zlen_cons, zlen_nil in L; pose proof (zlen_nonneg _ p); lia|].
    rewrite setA_at, bind_ok. rewrite !zlen_cons in L.
    replace (sp ++ c :: p ++ 0 :: sr) with ((sp ++ [c]) ++ p ++ 0 :: sr) by (rewrite <- app_assoc; reflexivity).
    replace (dp ++ c :: dq) with ((dp ++ [c]) ++ dq) by (rewrite <- app_assoc; reflexivity).
    rewrite <- !zlen_snoc with (x := c). rewrite IH; [|intro Q; apply H; right; auto|lia|cbn [length] in F; lia].
    rewrite <- !app_assoc. cbn [app length skipn]. rewrite zlen_app, !zlen_cons, zlen_nil. do 2 f_equal. lia.
Qed.

Lemma skipn_cons_ex : forall A n (l : list A), (n < length l)%nat -> exists y r, skipn n l = y :: r.
Proof.
  intros A n l H. destruct (skipn n l) as [|y r] eqn:E; [|eauto].
  pose proof (skipn_length n l) as Q. rewrite E in Q. cbn [length] in Q. lia.
Qed.

(** A string held by an array. *)
Definition holds (a p : list Z) : Prop := exists r, a = p ++ 0 :: r /\ ~ In 0 p.
Lemma holds_str : forall a p, holds a p -> str_of a = p.
Proof. intros a p (r & -> & H). apply str_of_app0; auto. Qed.
Lemma holds_term : forall a, terminated a -> holds a (str_of a).
Proof. intros a H. destruct (terminated_split a H) as [r E]. exists r. split; auto. apply str_of_no0. Qed.
Lemma holds_terminated : forall a p, holds a p -> terminated a.
Proof. intros a p (r & -> & _). unfold terminated. rewrite in_app_iff. right. left. auto. Qed.
Lemma holds_len : forall a p, holds a p -> zlen p < zlen a.
Proof. intros a p (r & -> & _). rewrite zlen_app, zlen_cons. pose proof (zlen_nonneg _ r). lia. Qed.

(** AppendPart on strings. *)
Definition ap (c : Z) (s d : list Z) : list Z :=
  (if (0 <? zlen d) && negb (last d 0 =? c) then d ++ [c] else d) ++ s.

Lemma getA_last : forall (p : list Z) q, p <> [] -> getA (p ++ q) (zlen p - 1) = Ok (last p 0).
Proof.
  intros p q H. destruct (exists_last H) as (p' & x & ->). rewrite zlen_snoc.
  replace (zlen p' + 1 - 1) with (zlen p') by lia. rewrite <- app_assoc. cbn [app]. rewrite getA_at, last_last. reflexivity.
Qed.

Lemma AppendPart_spec : forall c s d ps pd, c <> 0 -> holds s ps -> holds d pd -> zlen (ap c ps pd) < zlen d ->
  exists d', AppendPart c s d = Ok d' /\ holds d' (ap c ps pd) /\ zlen d' = zlen d.
Proof.
  intros c s d ps pd Hc Hs Hd L. unfold AppendPart. rewrite CharCount_spec, bind_ok. rewrite (holds_str d pd Hd).
  destruct Hs as (sr & Es & Ns). destruct Hd as (dr & Ed & Nd).
  set (pd' := if (0 <? zlen pd) && negb (last pd 0 =? c) then pd ++ [c] else pd).
  assert (Lap : zlen (ap c ps pd) = zlen pd' + zlen ps) by (unfold ap; fold pd'; rewrite zlen_app; reflexivity).
  assert (Step : exists dq, (if zlen pd >? 0 then
                    let* l := getA d (zlen pd - 1) in
                    if negb (l =? c) then let* d := setA d (zlen pd) c in Ok (d, zlen pd + 1) else Ok (d, zlen pd)
                  else Ok (d, zlen pd)) = Ok (pd' ++ dq, zlen pd') /\ zlen pd' + zlen dq = zlen d).
  { unfold pd'. destruct (zlen pd >? 0) eqn:E.
    - replace (0 <? zlen pd) with true by lia. cbn [andb]. rewrite Ed.
      rewrite getA_last by (intro Q; rewrite Q, zlen_nil in E; lia). rewrite bind_ok.
      destruct (last pd 0 =? c) eqn:E2; cbn [negb].
      + exists (0 :: dr). split; auto. rewrite <- zlen_app. reflexivity.
      + rewrite setA_at, bind_ok. exists dr. rewrite zlen_snoc, <- app_assoc. cbn [app]. split; auto.
        rewrite zlen_app, zlen_cons. lia.
    - replace (0 <? zlen pd) with false by lia. cbn [andb]. exists (0 :: dr). rewrite Ed. split; auto. rewrite zlen_app. lia. }
  destruct Step as (dq & St & Ld). rewrite St, bind_ok. cbv iota. cbv beta.
  assert (Lq : zlen ps < zlen dq) by lia.
  pose proof (copyz_spec ps (S (length s)) [] sr pd' dq Ns ltac:(lia)) as C. cbn [app] in C. rewrite zlen_nil in C.
  rewrite <- Es in C. rewrite C.
  2:{ rewrite Es, app_length. lia. }
  rewrite bind_ok. cbv iota. cbv beta.
  destruct (skipn_cons_ex _ (length ps) dq) as (y & r & Er); [unfold zlen in Lq; lia|].
  rewrite Er. rewrite <- zlen_app, setA_at. eexists. split; [reflexivity|].
  assert (Lr : zlen dq = zlen ps + 1 + zlen r).
  { rewrite <- (firstn_skipn (length ps) dq), Er, zlen_app, zlen_cons. unfold zlen at 1. rewrite firstn_length.
    unfold zlen in *. lia. }
  split.
  - exists r. split; [reflexivity|]. unfold ap. fold pd'. intro Q. apply in_app_or in Q. destruct Q as [Q|Q]; [|auto].
    unfold pd' in Q. destruct ((0 <? zlen pd) && negb (last pd 0 =? c)); auto. apply in_app_or in Q. destruct Q as [Q|[Q|[]]]; auto.
  - rewrite !zlen_app, zlen_cons. lia.
Qed.

Lemma IsOneOf_seps : forall c, IsOneOf c seps = Ok ((c =? 47) || (c =? 92)).
Proof.
  intro c. unfold IsOneOf. destruct (c =? 0) eqn:E0; [replace c with 0 by lia; reflexivity|].
  unfold seps. cbn [length oneof_loop]. change (getA [47; 92; 0] 0) with (Ok 47). rewrite bind_ok.
  rewrite (Z.eqb_sym 47 c). destruct (c =? 47) eqn:E1; cbn [negb andb orb Z.eqb]; auto.
  change (getA [47; 92; 0] (0 + 1)) with (Ok 92). rewrite bind_ok. rewrite (Z.eqb_sym 92 c).
  destruct (c =? 92) eqn:E2; cbn [negb andb orb Z.eqb]; auto.
  change (getA [47; 92; 0] (0 + 1 + 1)) with (Ok 0). rewrite bind_ok. rewrite (Z.eqb_sym 0 c), E0. reflexivity.
Qed.

Definition sep (c : Z) : bool := (c =? 47) || (c =? 92).
(** Longest prefix without separators; rest without leading separators. *)
Fixpoint pre (p : list Z) : list Z := match p with [] => [] | c :: r => if sep c then [] else c :: pre r end.
Fixpoint drops (p : list Z) : list Z := match p with [] => [] | c :: r => if sep c then drops r else p end.
Lemma pre_split : forall p, p = pre p ++ skipn (length (pre p)) p.
Proof. induction p as [|c p IH]; [reflexivity|]. cbn [pre]. destruct (sep c); [reflexivity|]. cbn [length skipn app]. f_equal. auto. Qed.
Lemma pre_next : forall p, match skipn (length (pre p)) p with [] => True | c :: _ => sep c = true end.
Proof. induction p as [|c p IH]; [exact I|]. cbn [pre]. destruct (sep c) eqn:E; cbn [length skipn]; auto. Qed.
Lemma pre_nosep : forall p c, In c (pre p) -> sep c = false.
Proof. induction p as [|x p IH]; intros c H; [contradiction|]. cbn [pre] in H. destruct (sep x) eqn:E; [contradiction|]. destruct H as [<-|H]; auto. Qed.

Lemma extract_loop_spec : forall p fuel sp sr dp dq, ~ In 0 p -> zlen (pre p) <= zlen dq -> (length p < fuel)%nat ->
  extract_loop fuel (sp ++ p ++ 0 :: sr) (zlen sp) seps (dp ++ dq) (zlen dp) =
    Ok (zlen sp + zlen (pre p), (dp ++ pre p) ++ skipn (length (pre p)) dq, zlen dp + zlen (pre p)).
Proof.
  induction p as [|c p IH]; intros fuel sp sr dp dq H L F; (destruct fuel as [|fuel]; [cbn [length] in F; lia|]); cbn [extract_loop].
  - cbn [app]. rewrite getA_at, bind_ok. cbn [Z.eqb]. rewrite bind_ok. cbn [pre length skipn]. rewrite app_nil_r, zlen_nil, !Z.add_0_r. reflexivity.
  - cbn [app]. rewrite getA_at, bind_ok. destruct (c =? 0) eqn:E; [exfalso; apply H; left; lia|].
    rewrite IsOneOf_seps, bind_ok. fold (sep c). cbn [pre] in *. destruct (sep c) eqn:Es.
    + cbn [length skipn]. rewrite app_nil_r, zlen_nil, !Z.add_0_r. reflexivity.
    + destruct dq as [|y dq]; [rewrite zlen_cons, zlen_nil in L; pose proof (zlen_nonneg _ (pre p)); lia|].
      rewrite setA_at, bind_ok. rewrite !zlen_cons in *.
      replace (sp ++ c :: p ++ 0 :: sr) with ((sp ++ [c]) ++ p ++ 0 :: sr) by (rewrite <- app_assoc; reflexivity).
      replace (dp ++ c :: dq) with ((dp ++ [c]) ++ dq) by (rewrite <- app_assoc; reflexivity).
      rewrite <- !zlen_snoc with (x := c). rewrite IH; [|intro Q; apply H; right; auto|lia|cbn [length] in F; lia].
      rewrite <- !app_assoc. cbn [app length skipn]. rewrite !zlen_app, !zlen_cons, !zlen_nil. f_equal. f_equal; [f_equal|]; lia.
Qed.
Lemma skip_loop_spec : forall p fuel sp sr, ~ In 0 p -> (length p < fuel)%nat ->
  skip_loop fuel (sp ++ p ++ 0 :: sr) (zlen sp) seps = Ok (zlen sp + zlen p - zlen (drops p)).
Proof.
  induction p as [|c p IH]; intros fuel sp sr H F; (destruct fuel as [|fuel]; [cbn [length] in F; lia|]); cbn [skip_loop].
  - cbn [app]. rewrite getA_at, bind_ok. rewrite IsOneOf_seps, bind_ok. cbn [Z.eqb orb drops]. f_equal. lia.
  - cbn [app]. rewrite getA_at, bind_ok. rewrite IsOneOf_seps, bind_ok. fold (sep c). cbn [drops]. destruct (sep c) eqn:Es.
    + replace (sp ++ c :: p ++ 0 :: sr) with ((sp ++ [c]) ++ p ++ 0 :: sr) by (rewrite <- app_assoc; reflexivity).
      rewrite <- zlen_snoc with (x := c). rewrite IH; [|intro Q; apply H; right; auto|cbn [length] in F; lia].
      rewrite zlen_snoc, zlen_cons. f_equal. lia.
    + f_equal. lia.
Qed.
Lemma drops_split : forall p, exists q, p = q ++ drops p /\ (forall c, In c q -> sep c = true).
Proof.
  induction p as [|c p (q & E & H)]; [exists []; split; auto; intros ? []|]. cbn [drops]. destruct (sep c) eqn:Es.
  - exists (c :: q). cbn [app]. split; [congruence|]. intros x [<-|Hx]; auto.
  - exists []. split; auto.
Qed.

(** ExtractPart at position |sp| of a string sp ++ p. *)
Lemma ExtractPart_spec : forall p sp sr d, ~ In 0 p -> zlen (pre p) < zlen d ->
  let s := sp ++ p ++ 0 :: sr in
  exists d' sp', ExtractPart s (zlen sp) seps d = Ok (zlen sp', d') /\ holds d' (pre p) /\ zlen d' = zlen d /\
    sp' ++ drops (skipn (length (pre p)) p) = sp ++ p.
Proof.
  intros p sp sr d H L s. unfold ExtractPart.
  pose proof (extract_loop_spec p (S (length s)) sp sr [] d H ltac:(lia)) as E. cbn [app] in E. rewrite zlen_nil in E. fold s in E.
  rewrite E. 2:{ unfold s. rewrite !app_length. lia. }
  rewrite bind_ok. cbv iota. cbv beta. rewrite Z.add_0_l.
  destruct (skipn_cons_ex _ (length (pre p)) d) as (y & r & Er); [unfold zlen in L; lia|]. rewrite Er, setA_at, bind_ok.
  set (q := skipn (length (pre p)) p).
  assert (Sq : s = (sp ++ pre p) ++ q ++ 0 :: sr).
  { unfold s, q. rewrite (pre_split p) at 1. rewrite <- !app_assoc. reflexivity. }
  assert (Nq : ~ In 0 q). { intro Q. apply H. rewrite (pre_split p), in_app_iff. auto. }
  pose proof (skip_loop_spec q (S (length s)) (sp ++ pre p) sr Nq) as K. rewrite <- Sq, zlen_app in K. rewrite K.
  2:{ rewrite Sq, !app_length. lia. }
  rewrite bind_ok. destruct (drops_split q) as (w & Ew & Hw).
  exists (pre p ++ 0 :: r), ((sp ++ pre p) ++ w). split; [|split; [|split]].
  - do 2 f_equal. rewrite !zlen_app. rewrite Ew at 1. rewrite zlen_app. lia.
  - exists r. split; auto. intro Q. apply H. rewrite (pre_split p), in_app_iff. auto.
  - rewrite zlen_app, zlen_cons. rewrite <- (firstn_skipn (length (pre p)) d), Er, zlen_app, zlen_cons.
    unfold zlen. rewrite firstn_length. unfold zlen in L. lia.
  - rewrite <- app_assoc, <- Ew, <- app_assoc. unfold q. rewrite <- pre_split. reflexivity.
Qed.

(** Components. *)
Definition nosl (c : list Z) : Prop := ~ In 47 c.
Lemma split_ne : forall p, split p <> [].
Proof. destruct p as [|c p]; cbn [split]; [discriminate|]. destruct (c =? 47); [discriminate|]. destruct (split p); discriminate. Qed.
Lemma split_nosl : forall p, Forall nosl (split p).
Proof.
  induction p as [|c p IH]; cbn [split]; [repeat constructor; intros []|].
  destruct (c =? 47) eqn:E; [constructor; auto; intros []|].
  destruct (split p) as [|h t]; [repeat constructor; intros [Q|[]]; lia|]. inversion IH; subst. constructor; auto.
  intros [Q|Q]; [lia|auto].
Qed.
Lemma unbs_skipn : forall n p, unbs (skipn n p) = skipn n (unbs p).
Proof. induction n; destruct p; cbn [skipn unbs map]; auto. Qed.
(** One step of the loop of Trim, on components. *)
Lemma pre_unbs : forall p, unbs (pre p) = pre p.
Proof.
  induction p as [|c p IH]; [reflexivity|]. cbn [pre]. destruct (sep c) eqn:E; [reflexivity|]. unfold sep in E.
  cbn [unbs map]. replace (c =? 92) with false by lia. f_equal. exact IH.
Qed.
Lemma split_pre : forall p, exists t, split (unbs p) = pre p :: t /\
  match skipn (length (pre p)) p with [] => t = [] | _ :: r => t = split (unbs r) end.
Proof.
  induction p as [|c p IH]; [exists []; split; reflexivity|]. cbn [unbs map pre]. fold (unbs p).
  destruct (sep c) eqn:Es; unfold sep in Es.
  - replace (if c =? 92 then 47 else c) with 47 by (destruct (c =? 92) eqn:?; lia). cbn [split Z.eqb Pos.eqb length skipn]. eauto.
  - replace (c =? 92) with false by lia. cbn [split]. replace (c =? 47) with false by lia.
    destruct IH as (t & E & Q). rewrite E. exists t. split; auto.
Qed.
Lemma filter_drops : forall p, filter keep (split (unbs (drops p))) = filter keep (split (unbs p)).
Proof.
  induction p as [|c p IH]; [reflexivity|]. cbn [drops]. destruct (sep c) eqn:E; [|reflexivity]. rewrite IH.
  cbn [unbs map]. fold (unbs p). unfold sep in E.
  assert (Q : (if c =? 92 then 47 else c) = 47) by (destruct (c =? 92) eqn:E2; lia). rewrite Q. cbn [split Z.eqb Pos.eqb filter keep]. reflexivity.
Qed.
Lemma parts_step : forall p, filter keep (split (unbs p)) =
  (if keep (pre p) then [pre p] else []) ++ filter keep (split (unbs (drops (skipn (length (pre p)) p)))).
Proof.
  intro p. destruct (split_pre p) as (t & E & Q). rewrite E. cbn [filter].
  rewrite filter_drops. assert (T : filter keep t = filter keep (split (unbs (skipn (length (pre p)) p)))).
  { pose proof (pre_next p) as N. destruct (skipn (length (pre p)) p) as [|c r]; [subst t; reflexivity|]. subst t.
    cbn [unbs map]. fold (unbs r). unfold sep in N. assert (W : (if c =? 92 then 47 else c) = 47) by (destruct (c =? 92) eqn:E2; lia).
    rewrite W. cbn [split Z.eqb Pos.eqb filter keep]. reflexivity. }
  rewrite T. destruct (keep (pre p)); reflexivity.
Qed.

(** Appending the parts one by one. *)
Definition aps (d : list Z) (l : list (list Z)) : list Z := fold_left (fun d c => ap 47 c d) l d.
Lemma aps_len : forall l d, zlen d <= zlen (aps d l).
Proof.
  induction l as [|c l IH]; intro d; cbn [aps fold_left]; [unfold aps; cbn [fold_left]; lia|].
  fold (aps (ap 47 c d) l). eapply Z.le_trans; [|apply IH]. unfold ap. rewrite zlen_app. pose proof (zlen_nonneg _ c).
  destruct ((0 <? zlen d) && negb (last d 0 =? 47)); rewrite ?zlen_app, ?zlen_cons, ?zlen_nil; lia.
Qed.
Lemma aps_app : forall a b d, aps d (a ++ b) = aps (aps d a) b.
Proof. intros. unfold aps. apply fold_left_app. Qed.
Lemma keep_match : forall (A : Type) part (x y : A), match part with [] => x | [46] => x | _ => y end = if keep part then y else x.
Proof. intros A part x y. destruct part as [|[|[?|?|]|] [|? ?]]; try reflexivity; cbn [keep]; repeat (match goal with p : positive |- _ => destruct p; try reflexivity end). Qed.

Lemma trim_loop_spec : forall n p fuel sp sr part d cur, (length p <= n)%nat -> ~ In 0 p -> zlen part = 1024 ->
  Forall (fun c => zlen c < 1024) (split (unbs p)) ->
  holds d cur -> zlen (aps cur (filter keep (split (unbs p)))) < zlen d -> (length p < fuel)%nat ->
  exists d', trim_loop fuel (sp ++ p ++ 0 :: sr) (zlen sp) part d = Ok d' /\
    holds d' (aps cur (filter keep (split (unbs p)))) /\ zlen d' = zlen d.
Proof.
  induction n as [|n IH]; intros p fuel sp sr part d cur Hn H Lp Fp Hd L F.
  - destruct p; [|cbn [length] in Hn; lia]. destruct fuel; [cbn [length] in F; lia|]. cbn [trim_loop app].
    rewrite getA_at, bind_ok. cbn [Z.eqb unbs map split filter keep aps fold_left] in *. eauto.
  - destruct fuel as [|fuel]; [lia|]. cbn [trim_loop]. destruct p as [|c p0].
    { cbn [app]. rewrite getA_at, bind_ok. cbn [Z.eqb unbs map split filter keep aps fold_left] in *. eauto. }
    set (p := c :: p0) in *.
    replace (getA (sp ++ p ++ 0 :: sr) (zlen sp)) with (Ok c) by (unfold p; cbn [app]; rewrite getA_at; reflexivity).
    rewrite bind_ok. destruct (c =? 0) eqn:E0; [exfalso; apply H; left; lia|].
    destruct (split_pre p) as (t & Et & Q).
    assert (Lpre : zlen (pre p) < 1024). { rewrite Et in Fp. inversion Fp; auto. }
    destruct (ExtractPart_spec p sp sr part H ltac:(lia)) as (part' & sp' & X1 & X2 & X3 & X4).
    rewrite X1, bind_ok. cbv iota. cbv beta. rewrite (holds_str _ _ X2). rewrite keep_match.
    set (q := drops (skipn (length (pre p)) p)) in *.
    assert (S : sp ++ p ++ 0 :: sr = sp' ++ q ++ 0 :: sr) by (rewrite !app_assoc; f_equal; auto).
    assert (Nq : ~ In 0 q).
    { intro W. apply H. rewrite (pre_split p), in_app_iff. right. destruct (drops_split (skipn (length (pre p)) p)) as (w & Ew & _).
      rewrite Ew, in_app_iff. auto. }
    assert (Lq : (length q < length p)%nat).
    { unfold q, p. cbn [pre]. destruct (sep c) eqn:Es.
      - cbn [length skipn drops]. rewrite Es. destruct (drops_split p0) as (w & Ew & _).
        apply (f_equal (@length Z)) in Ew. rewrite app_length in Ew. lia.
      - cbn [length skipn]. destruct (drops_split (skipn (length (pre p0)) p0)) as (w & Ew & _).
        apply (f_equal (@length Z)) in Ew. rewrite app_length, skipn_length in Ew. lia. }
    assert (Fq : Forall (fun c => zlen c < 1024) (split (unbs q))).
    { clear - Fp Et Q. unfold q. destruct (skipn (length (pre p)) p) as [|x r] eqn:Er.
      - cbn [drops unbs map split]. repeat constructor.
      - rewrite Et in Fp. inversion Fp; subst.
        assert (G : forall r, Forall (fun c => zlen c < 1024) (split (unbs r)) -> Forall (fun c => zlen c < 1024) (split (unbs (drops r)))).
        { clear. induction r as [|y r IH]; auto. intro F. cbn [drops]. destruct (sep y) eqn:Es; auto. apply IH.
          cbn [unbs map split] in F. unfold sep in Es. replace ((if y =? 92 then 47 else y) =? 47) with true in F
            by (destruct (y =? 92) eqn:?; lia). inversion F; auto. }
        cbn [drops]. pose proof (pre_next p) as N. rewrite Er in N. rewrite N. apply G. auto. }
    assert (EQ : filter keep (split (unbs p)) = (if keep (pre p) then [pre p] else []) ++ filter keep (split (unbs q))) by apply parts_step.
    rewrite EQ in *. rewrite aps_app in *. destruct (keep (pre p)) eqn:K.
    + change (aps cur [pre p]) with (ap 47 (pre p) cur) in *.
      pose proof (aps_len (filter keep (split (unbs q))) (ap 47 (pre p) cur)).
      destruct (AppendPart_spec 47 part' d (pre p) cur) as (d1 & A1 & A2 & A3); auto; try lia.
      rewrite A1, bind_ok. rewrite S.
      destruct (IH q fuel sp' sr part' d1 (ap 47 (pre p) cur)) as (d' & D1 & D2 & D3); auto; try lia.
      exists d'. rewrite D1. split; auto. split; auto. lia.
    + change (aps cur []) with cur in *. rewrite bind_ok. rewrite S.
      destruct (IH q fuel sp' sr part' d cur) as (d' & D1 & D2 & D3); auto; try lia. exists d'. auto.
Qed.

Lemma lead_loop_spec : forall s p, holds s p -> forall d, (Nat.min 2 (lead (unbs p)) < length d)%nat ->
  let k := Nat.min 2 (lead (unbs p)) in
  lead_loop 3 s 0 d 0 = Ok (Z.of_nat k, repeat 47 k ++ skipn k d, Z.of_nat k).
Proof.
  intros s p (r & -> & H) d L k.
  assert (U : forall c, ((if c =? 92 then 47 else c) =? 47) = (c =? 47) || (c =? 92)) by (intro c; destruct (c =? 92) eqn:?; lia).
  cbn [lead_loop Z.ltb Z.compare]. unfold k in *. clear k.
  destruct p as [|c p].
  - cbn [app unbs map lead Nat.min repeat skipn] in *. change (getA (0 :: r) 0) with (Ok 0). rewrite bind_ok, IsOneOf_seps, bind_ok. reflexivity.
  - cbn [app unbs map lead] in *. fold (unbs p) in *. rewrite U in *.
    assert (G0 : getA (c :: p ++ 0 :: r) 0 = Ok c) by (apply (getA_at [])). rewrite G0, bind_ok, IsOneOf_seps, bind_ok.
    destruct ((c =? 47) || (c =? 92)) eqn:E; [|reflexivity].
    destruct d as [|y d]; [cbn [length] in L; lia|]. rewrite (setA_at [] y d 47 : setA (y :: d) 0 47 = _). cbn [app]. rewrite bind_ok.
    change (0 + 1 <? 2) with true. cbv iota. change (0 + 1) with 1.
    destruct p as [|c1 p].
    + cbn [app unbs map lead Nat.min repeat skipn] in *.
      assert (G1 : getA (c :: 0 :: r) 1 = Ok 0) by (apply (getA_at [c])). rewrite G1, bind_ok, IsOneOf_seps, bind_ok. reflexivity.
    + cbn [app unbs map lead] in *. fold (unbs p) in *. rewrite U in *.
      assert (G1 : getA (c :: c1 :: p ++ 0 :: r) 1 = Ok c1) by (apply (getA_at [c])). rewrite G1, bind_ok, IsOneOf_seps, bind_ok.
      destruct ((c1 =? 47) || (c1 =? 92)) eqn:E1; [|reflexivity].
      cbn [Nat.min] in *. destruct d as [|y1 d]; [cbn [length] in L; lia|].
      assert (S1 : setA (47 :: y1 :: d) 1 47 = Ok (47 :: 47 :: d)) by (apply (setA_at [47])). rewrite S1, bind_ok.
      change (1 + 1 <? 2) with false. cbv iota. rewrite bind_ok. reflexivity.
Qed.

(** The string built by appending the parts. *)
Definition tl_parts (l : list (list Z)) : list Z := concat (map (cons 47) l).
Lemma join_cons : forall c l, join (c :: l) = c ++ tl_parts l.
Proof.
  intros c l. revert c. induction l as [|e l IH]; intro c; [cbn; rewrite app_nil_r; reflexivity|].
  change (join (c :: e :: l)) with (c ++ 47 :: join (e :: l)). rewrite IH. reflexivity.
Qed.
Definition good (c : list Z) : Prop := keep c = true /\ nosl c.
Lemma good_ne : forall c, good c -> c <> [].
Proof. intros c [H _] ->. discriminate. Qed.
Lemma last_app_ne : forall (a b : list Z), b <> [] -> last (a ++ b) 0 = last b 0.
Proof.
  intros a b H. destruct (exists_last H) as (b' & x & ->). rewrite app_assoc, !last_last. reflexivity.
Qed.
Lemma good_last : forall c, good c -> last c 0 <> 47.
Proof.
  intros c G. pose proof (good_ne c G) as N. destruct (exists_last N) as (c' & x & ->). rewrite last_last. destruct G as [_ G].
  intro Q. apply G. rewrite in_app_iff. right. left. auto.
Qed.
Lemma ap_nosl : forall c d, d <> [] -> last d 0 <> 47 -> ap 47 c d = d ++ 47 :: c.
Proof.
  intros c d H L. unfold ap. destruct d; [congruence|]. rewrite zlen_cons. pose proof (zlen_nonneg _ d).
  replace (0 <? 1 + zlen d) with true by lia. replace (last (z :: d) 0 =? 47) with false by lia. cbn [andb negb].
  rewrite <- app_assoc. reflexivity.
Qed.
Lemma ap_sl : forall c d, d = [] \/ last d 0 = 47 -> ap 47 c d = d ++ c.
Proof.
  intros c d H. unfold ap. destruct H as [->|H]; [reflexivity|]. rewrite H. cbn [Z.eqb Pos.eqb negb]. rewrite andb_false_r. reflexivity.
Qed.
Lemma aps_tl : forall l d, Forall good l -> d <> [] -> last d 0 <> 47 -> aps d l = d ++ tl_parts l.
Proof.
  induction l as [|c l IH]; intros d G N L; [unfold aps, tl_parts; cbn; rewrite app_nil_r; reflexivity|].
  inversion G; subst. change (aps d (c :: l)) with (aps (ap 47 c d) l). rewrite ap_nosl by auto. rewrite IH; auto.
  - unfold tl_parts. cbn [map concat]. rewrite <- app_assoc. reflexivity.
  - destruct d; discriminate.
  - replace (d ++ 47 :: c) with ((d ++ [47]) ++ c) by (rewrite <- app_assoc; reflexivity).
    rewrite last_app_ne by (apply good_ne; auto). apply good_last; auto.
Qed.
Lemma aps_join : forall l d, Forall good l -> d = [] \/ last d 0 = 47 -> aps d l = d ++ join l.
Proof.
  intros [|c l] d G H; [unfold aps; cbn; rewrite app_nil_r; reflexivity|]. inversion G; subst.
  change (aps d (c :: l)) with (aps (ap 47 c d) l). rewrite ap_sl by auto. rewrite join_cons, app_assoc.
  apply aps_tl; auto.
  - intro Q. apply app_eq_nil in Q. destruct Q as [_ Q]. apply (good_ne c); auto.
  - rewrite last_app_ne by (apply good_ne; auto). apply good_last; auto.
Qed.
Lemma good_parts : forall p, Forall good (filter keep (split p)).
Proof.
  intro p. pose proof (split_nosl p) as H. rewrite Forall_forall in *. intros c Hc. apply filter_In in Hc. destruct Hc.
  split; auto.
Qed.
Lemma last_repeat : forall k, k <> O -> last (repeat 47 k) 0 = 47.
Proof. induction k as [|[|k] IH]; intro H; [congruence|reflexivity|]. change (last (repeat 47 (S k)) 0 = 47). apply IH. discriminate. Qed.
Lemma aps_trim : forall p, aps (repeat 47 (Nat.min 2 (lead (unbs p)))) (filter keep (split (unbs p))) = trim p.
Proof.
  intro p. unfold trim. apply aps_join; [apply good_parts|]. destruct (Nat.min 2 (lead (unbs p))) eqn:E; [auto|].
  right. apply last_repeat. discriminate.
Qed.

Lemma lead_repeat : forall p, p = repeat 47 (lead p) ++ skipn (lead p) p.
Proof.
  induction p as [|c p IH]; [reflexivity|]. cbn [lead]. destruct (c =? 47) eqn:E; [|reflexivity].
  cbn [repeat skipn app]. f_equal; [lia|auto].
Qed.
Lemma split_repeat : forall k p, split (repeat 47 k ++ p) = repeat [] k ++ split p.
Proof. induction k; intro p; [reflexivity|]. cbn [repeat app split Z.eqb Pos.eqb]. f_equal. auto. Qed.
Lemma filter_repeat : forall k l, filter keep (repeat [] k ++ l) = filter keep l.
Proof. induction k; intro l; [reflexivity|]. cbn [repeat app filter keep]. auto. Qed.
Lemma unbs_id : forall p, ~ In 92 p -> unbs p = p.
Proof.
  induction p as [|c p IH]; intro H; [reflexivity|]. cbn [unbs map]. fold (unbs p). rewrite IH by (intro; apply H; right; auto).
  destruct (c =? 92) eqn:E; [exfalso; apply H; left; lia|reflexivity].
Qed.

Lemma Trim_spec : forall s d, terminated s -> 1 <= zlen d ->
  Forall (fun c => zlen c < 1024) (split (unbs (str_of s))) -> zlen (trim (str_of s)) < zlen d ->
  exists d', Trim s d = Ok d' /\ holds d' (trim (str_of s)) /\ zlen d' = zlen d.
Proof.
  intros s d T L1 Fp L. set (p := str_of s) in *. pose proof (holds_term s T) as Hs. fold p in Hs.
  set (k := Nat.min 2 (lead (unbs p))).
  assert (Lk : zlen (repeat 47 k) = Z.of_nat k) by (unfold zlen; rewrite repeat_length; reflexivity).
  assert (Lt : zlen (repeat 47 k) <= zlen (trim p)) by (unfold trim; fold k; rewrite zlen_app; pose proof (zlen_nonneg _ (join (filter keep (split (unbs p))))); lia).
  unfold Trim. pose proof (lead_loop_spec s p Hs d) as LL. cbv zeta in LL. fold k in LL. rewrite LL by (unfold zlen in *; lia).
  rewrite bind_ok. cbv iota. cbv beta.
  destruct (skipn_cons_ex _ k d) as (y & r & Er); [unfold zlen in *; lia|]. rewrite Er.
  assert (SA : setA (repeat 47 k ++ y :: r) (Z.of_nat k) 0 = Ok (repeat 47 k ++ 0 :: r)) by (rewrite <- Lk; apply setA_at).
  rewrite SA, bind_ok.
  assert (Ld : zlen (repeat 47 k ++ 0 :: r) = zlen d).
  { rewrite zlen_app, zlen_cons. rewrite <- (firstn_skipn k d), Er, zlen_app, zlen_cons.
    unfold zlen. rewrite firstn_length, repeat_length. unfold zlen in *. lia. }
  destruct Hs as (sr & Es & Ns).
  set (u := unbs p) in *. set (q := skipn k p).
  assert (Hk : (k <= length p)%nat).
  { assert (lead u <= length u)%nat by (clear; induction u as [|c u IH]; cbn [lead length]; [auto|destruct (c =? 47); lia]).
    unfold k. unfold u, unbs in H. rewrite map_length in H. fold (unbs p) in H. fold u in H. lia. }
  assert (Eu : u = repeat 47 k ++ unbs q).
  { unfold q. rewrite unbs_skipn. fold u. rewrite <- (firstn_skipn k u) at 1. f_equal.
    rewrite (lead_repeat u). rewrite firstn_app, repeat_length. replace (k - lead u)%nat with O by (unfold k; lia).
    cbn [firstn]. rewrite app_nil_r. assert (k <= lead u)%nat by (unfold k; lia). revert H. clear. generalize (lead u).
    induction k as [|k IH]; intros n H; [reflexivity|]. destruct n; [lia|]. cbn [repeat firstn]. f_equal. apply IH. lia. }
  assert (EQ : filter keep (split u) = filter keep (split (unbs q))) by (rewrite Eu, split_repeat, filter_repeat; reflexivity).
  assert (Fq : Forall (fun c => zlen c < 1024) (split (unbs q))).
  { rewrite Eu, split_repeat in Fp. rewrite Forall_app in Fp. tauto. }
  assert (Nq : ~ In 0 q). { intro Q. apply Ns. rewrite <- (firstn_skipn k p), in_app_iff. auto. }
  assert (Ss : s = firstn k p ++ q ++ 0 :: sr). { rewrite Es at 1. rewrite <- (firstn_skipn k p) at 1. rewrite <- app_assoc. reflexivity. }
  assert (Lf : Z.of_nat k = zlen (firstn k p)) by (unfold zlen; rewrite firstn_length; lia).
  rewrite Lf.
  pose proof (aps_trim p) as AT. fold u k in AT. rewrite EQ in AT.
  destruct (trim_loop_spec (length q) q (S (length s)) (firstn k p) sr (repeat 0 1024) (repeat 47 k ++ 0 :: r) (repeat 47 k)) as (d' & D1 & D2 & D3); auto.
  - exists r. split; auto. clear. induction k; cbn [repeat In]; [auto|]. intros [Q|Q]; [discriminate|auto].
  - rewrite AT, Ld. auto.
  - apply (f_equal (@length Z)) in Ss. rewrite !app_length in Ss. lia.
  - exists d'. rewrite AT in D2. rewrite <- Ss in D1. split; auto. split; auto. lia.
Qed.

(** Trim leaves its results alone. *)
Lemma split_join : forall l, Forall nosl l -> l <> [] -> split (join l) = l.
Proof.
  assert (G : forall c q, nosl c -> split (c ++ 47 :: q) = c :: split q).
  { induction c as [|x c IH]; intros q H; [reflexivity|]. cbn [app split]. destruct (x =? 47) eqn:E; [exfalso; apply H; left; lia|].
    rewrite IH by (intro; apply H; right; auto). reflexivity. }
  assert (G0 : forall c, nosl c -> split c = [c]).
  { induction c as [|x c IH]; intro H; [reflexivity|]. cbn [split]. destruct (x =? 47) eqn:E; [exfalso; apply H; left; lia|].
    rewrite IH by (intro; apply H; right; auto). reflexivity. }
  induction l as [|c [|e l] IH]; intros H N; [congruence| |]; inversion H; subst.
  - apply G0; auto.
  - change (join (c :: e :: l)) with (c ++ 47 :: join (e :: l)). rewrite G by auto. rewrite IH; auto. discriminate.
Qed.
Lemma filter_keep_all : forall l, Forall good l -> filter keep l = l.
Proof. induction l as [|c l IH]; intro H; [reflexivity|]. inversion H as [|? ? [K _] G]; subst. cbn [filter]. rewrite K. f_equal. auto. Qed.
Lemma parts_join : forall l, Forall good l -> filter keep (split (join l)) = l.
Proof.
  intros l G. destruct l as [|c l]; [reflexivity|]. rewrite split_join; [apply filter_keep_all; auto| |discriminate].
  eapply Forall_impl; [|exact G]. intros a [_ Q]. exact Q.
Qed.
Lemma lead_app : forall k q, lead (repeat 47 k ++ q) = (k + lead q)%nat.
Proof. induction k; intro q; [reflexivity|]. cbn [repeat app lead Z.eqb Pos.eqb]. rewrite IHk. reflexivity. Qed.
Lemma lead_join : forall l, Forall good l -> lead (join l) = O.
Proof.
  intros [|c l] G; [reflexivity|]. rewrite join_cons. inversion G as [|? ? [K N] _]; subst.
  destruct c as [|x c]; [discriminate|]. cbn [app lead]. destruct (x =? 47) eqn:E; [exfalso; apply N; left; lia|reflexivity].
Qed.
Lemma in_split : forall p c x, In c (split p) -> In x c -> In x p.
Proof.
  induction p as [|y p IH]; intros c x H Hx; cbn [split] in H; [destruct H as [<-|[]]; contradiction|].
  destruct (y =? 47); [destruct H as [<-|H]; [contradiction|right; eauto]|].
  pose proof (split_ne p) as N. destruct (split p) as [|h t] eqn:E; [congruence|]. destruct H as [<-|H].
  - destruct Hx as [->|Hx]; [left; auto|]. right. apply (IH h); [left; auto|auto].
  - right. apply (IH c); [right; auto|auto].
Qed.
Lemma in_join : forall l x, In x (join l) -> x = 47 \/ exists c, In c l /\ In x c.
Proof.
  intros l x. destruct l as [|c l]; [intros []|]. rewrite join_cons. intro H. apply in_app_or in H. destruct H as [H|H].
  - right. exists c. split; [left; auto|auto].
  - unfold tl_parts in H. apply in_concat in H. destruct H as (y & Hy & Hx). apply in_map_iff in Hy. destruct Hy as (z & <- & Hz).
    destruct Hx as [Hx|Hx]; [left; auto|]. right. exists z. split; [right; auto|auto].
Qed.
Lemma unbs_no92 : forall p, ~ In 92 (unbs p).
Proof. intros p H. unfold unbs in H. apply in_map_iff in H. destruct H as (x & E & _). destruct (x =? 92) eqn:?; lia. Qed.
Lemma trim_no92 : forall p, ~ In 92 (trim p).
Proof.
  intros p H. unfold trim in H. apply in_app_or in H. destruct H as [H|H].
  - apply repeat_spec in H. discriminate.
  - apply in_join in H. destruct H as [H|(c & Hc & Hx)]; [discriminate|]. apply filter_In in Hc. destruct Hc as [Hc _].
    apply (unbs_no92 p). eapply in_split; eauto.
Qed.
Lemma trim_parts : forall p, filter keep (split (trim p)) = filter keep (split (unbs p)).
Proof. intro p. unfold trim. rewrite split_repeat, filter_repeat. apply parts_join. apply good_parts. Qed.
Lemma trim_lead : forall p, lead (trim p) = Nat.min 2 (lead (unbs p)).
Proof. intro p. unfold trim. rewrite lead_app, lead_join by apply good_parts. lia. Qed.
Lemma trim_idem : forall p, trim (trim p) = trim p.
Proof.
  intro p. unfold trim at 1. rewrite (unbs_id (trim p)) by apply trim_no92. rewrite trim_parts, trim_lead.
  unfold trim. f_equal. f_equal. lia.
Qed.

(** Meaning. *)
Lemma walk_cons : forall F n c r, walk F n (c :: r) =
  if keep c then match step F n c with Some m => walk F m r | None => None end else if isdir F n then walk F n r else None.
Proof. intros F n c r. cbn [walk]. destruct c as [|[|[?|?|]|] [|? ?]]; try reflexivity; cbn [keep]; repeat (match goal with p : positive |- _ => destruct p; try reflexivity end). Qed.
Lemma walk_filter : forall F l n m, walk F n l = Some m -> walk F n (filter keep l) = Some m.
Proof.
  intros F. induction l as [|c l IH]; intros n m H; [exact H|]. rewrite walk_cons in H. cbn [filter].
  destruct (keep c) eqn:K.
  - rewrite walk_cons, K. destruct (step F n c); [apply IH; auto|discriminate].
  - destruct (isdir F n); [apply IH; auto|discriminate].
Qed.
Lemma walk_app : forall F a b n, walk F n (a ++ b) = match walk F n a with Some m => walk F m b | None => None end.
Proof.
  intros F. induction a as [|c a IH]; intros b n; [reflexivity|]. cbn [app]. rewrite !walk_cons.
  destruct (keep c); [destruct (step F n c); auto|destruct (isdir F n); auto].
Qed.
Lemma walk_empty : forall F k n l, isdir F n = true -> walk F n (repeat [] k ++ l) = walk F n l.
Proof. intros F. induction k; intros n l H; [reflexivity|]. cbn [repeat app]. rewrite walk_cons. cbn [keep]. rewrite H. auto. Qed.
