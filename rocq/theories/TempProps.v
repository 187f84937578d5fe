(** Property C56: temporary file names. *)
From Verif Require Import Base ArrZ StringsModel StringsSpec StringsProofs CStrModel CStrProofs CStrProps PathModel PathSpec PathProofs PathProps.

(** The decimal digits of n, least significant first; nothing for n <= 0. *)
Fixpoint revdigits (fuel : nat) (n : Z) : list Z :=
  match fuel with O => [] | S f => if n >? 0 then (n mod 10 + 48) :: revdigits f (n / 10) else [] end.
Definition rd (n : Z) : list Z := revdigits 6 n.
(** ".tmp." *)
Definition dottmp : list Z := [46; 116; 109; 112; 46].
(** The temporary name for a final name whose absolute form is [full]. *)
Definition tempname (full : list Z) (n pid : Z) : list Z := dirpart full ++ dottmp ++ rd n ++ 46 :: rd pid.

Lemma revdigits_chars : forall f n c, In c (revdigits f n) -> 48 <= c <= 57.
Proof.
  induction f as [|f IH]; intros n c H; [contradiction|]. cbn [revdigits] in H. destruct (n >? 0); [|contradiction].
  destruct H as [H|H]; [lia|eauto].
Qed.
Lemma revdigits_inj : forall f n m, 0 <= n < 10 ^ Z.of_nat f -> 0 <= m < 10 ^ Z.of_nat f -> revdigits f n = revdigits f m -> n = m.
Proof.
  induction f as [|f IH]; intros n m Hn Hm H; [change (10 ^ Z.of_nat 0) with 1 in *; lia|].
  replace (10 ^ Z.of_nat (S f)) with (10 * 10 ^ Z.of_nat f) in * by (rewrite Nat2Z.inj_succ, Z.pow_succ_r by lia; reflexivity).
  cbn [revdigits] in H. destruct (n >? 0) eqn:En, (m >? 0) eqn:Em; try discriminate; [|lia].
  inversion H as [[H1 H2]]. apply IH in H2; lia.
Qed.
Lemma revdigits_more : forall f n, n < 10 ^ Z.of_nat f -> revdigits (S f) n = revdigits f n.
Proof.
  induction f as [|f IH]; intros n H.
  - change (10 ^ Z.of_nat 0) with 1 in H. cbn [revdigits]. replace (n >? 0) with false by lia. reflexivity.
  - replace (10 ^ Z.of_nat (S f)) with (10 * 10 ^ Z.of_nat f) in H by (rewrite Nat2Z.inj_succ, Z.pow_succ_r by lia; reflexivity).
    remember (S f) as k. cbn [revdigits]. subst k. rewrite (IH (n / 10)) by lia. reflexivity.
Qed.
Lemma digits_loop_spec : forall f n dp dq, zlen (revdigits f n) <= zlen dq -> 0 <= n < 10 ^ Z.of_nat f \/ n < 0 ->
  digits_loop (S f) n (dp ++ dq) (zlen dp) = Ok ((dp ++ revdigits f n) ++ skipn (length (revdigits f n)) dq, zlen dp + zlen (revdigits f n)).
Proof.
  induction f as [|f IH]; intros n dp dq L H.
  - cbn [digits_loop revdigits length skipn]. change (10 ^ Z.of_nat 0) with 1 in H. replace (n >? 0) with false by lia.
    rewrite app_nil_r, zlen_nil, Z.add_0_r. reflexivity.
  - remember (S f) as k. cbn [digits_loop]. subst k. cbn [revdigits] in *. destruct (n >? 0) eqn:E.
    + rewrite zlen_cons in L. pose proof (zlen_nonneg _ (revdigits f (n / 10))).
      destruct dq as [|y dq]; [rewrite zlen_nil in L; lia|]. rewrite zlen_cons in L. rewrite setA_at, bind_ok.
      replace (dp ++ (n mod 10 + 48) :: dq) with ((dp ++ [n mod 10 + 48]) ++ dq) by (rewrite <- app_assoc; reflexivity).
      replace (zlen dp + 1) with (zlen (dp ++ [n mod 10 + 48])) by apply zlen_snoc.
      rewrite IH; [|lia|].
      * rewrite <- !app_assoc. cbn [app length skipn]. rewrite zlen_snoc, zlen_cons. do 2 f_equal. lia.
      * left. replace (10 ^ Z.of_nat (S f)) with (10 * 10 ^ Z.of_nat f) in * by (rewrite Nat2Z.inj_succ, Z.pow_succ_r by lia; reflexivity). lia.
    + cbn [length skipn]. rewrite app_nil_r, zlen_nil, Z.add_0_r. reflexivity.
Qed.

(** dirpart: everything up to the last '/'. *)
Lemma existsb47 : forall p, existsb (Z.eqb 47) p = true <-> In 47 p.
Proof.
  intro p. rewrite existsb_exists. split; [intros (x & H & E); replace 47 with x by lia; auto|]. intro H. exists 47. split; auto.
Qed.
Lemma dirpart_app : forall a b, ~ In 47 b -> dirpart (a ++ 47 :: b) = a ++ [47].
Proof.
  induction a as [|c a IH]; intros b H.
  - cbn [app dirpart existsb Z.eqb Pos.eqb orb]. f_equal. destruct b as [|x b]; [reflexivity|]. cbn [dirpart].
    destruct (existsb (Z.eqb 47) (x :: b)) eqn:E; [apply existsb47 in E; contradiction|reflexivity].
  - cbn [app dirpart]. replace (existsb (Z.eqb 47) (c :: a ++ 47 :: b)) with true.
    + f_equal. auto.
    + symmetry. apply existsb47. right. rewrite in_app_iff. right. left. auto.
Qed.
Lemma dirpart_form : forall p, In 47 p -> exists a b, p = a ++ 47 :: b /\ ~ In 47 b /\ dirpart p = a ++ [47].
Proof.
  intros p H. assert (G : exists a b, p = a ++ 47 :: b /\ ~ In 47 b).
  { induction p as [|c p IH]; [contradiction|]. destruct (in_dec Z.eq_dec 47 p) as [Q|Q].
    - destruct (IH Q) as (a & b & E & N). exists (c :: a), b. cbn [app]. split; [congruence|auto].
    - destruct H as [->|H]; [|contradiction]. exists [], p. auto. }
  destruct G as (a & b & E & N). exists a, b. split; auto. split; auto. rewrite E. apply dirpart_app; auto.
Qed.
Lemma slash_loop_spec : forall b fuel a r, ~ In 47 b -> (length b < fuel)%nat ->
  slash_loop fuel (a ++ 47 :: b ++ r) (zlen a + zlen b) = Ok (zlen a).
Proof.
  induction b as [|x b IH] using rev_ind; intros fuel a r H F; (destruct fuel as [|fuel]; [lia|]); cbn [slash_loop].
  - rewrite zlen_nil, Z.add_0_r. destruct (zlen a >? 0); [|reflexivity]. rewrite getA_at, bind_ok. reflexivity.
  - rewrite zlen_snoc. pose proof (zlen_nonneg _ a). pose proof (zlen_nonneg _ b).
    replace (zlen a + (zlen b + 1) >? 0) with true by lia.
    replace (a ++ 47 :: (b ++ [x]) ++ r) with ((a ++ 47 :: b) ++ x :: r) by (rewrite <- !app_assoc; cbn [app]; reflexivity).
    replace (zlen a + (zlen b + 1)) with (zlen (a ++ 47 :: b)) by (rewrite zlen_app, zlen_cons; lia).
    rewrite getA_at, bind_ok. destruct (x =? 47) eqn:E; [exfalso; apply H; rewrite in_app_iff; right; left; lia|]. cbn [negb].
    replace (zlen (a ++ 47 :: b) - 1) with (zlen a + zlen b) by (rewrite zlen_app, zlen_cons; lia).
    replace ((a ++ 47 :: b) ++ x :: r) with (a ++ 47 :: b ++ (x :: r)) by (rewrite <- app_assoc; reflexivity).
    apply IH; [intro Q; apply H; rewrite in_app_iff; auto|rewrite app_length in F; cbn [length] in F; lia].
Qed.

(** The absolute form of a final name. *)
Definition fullname (cwd final : list Z) : list Z := match final with 47 :: _ => final | _ => mkname cwd final end.
Lemma fullname_eq : forall w f, fullname w f = if (match f with c :: _ => c =? 47 | [] => false end) then f else mkname w f.
Proof.
  intros w f. unfold fullname. destruct f as [|c f]; [reflexivity|]. destruct (c =? 47) eqn:E.
  - replace c with 47 by lia. reflexivity.
  - destruct c as [|p|p]; try reflexivity. do 6 (destruct p as [p|p|]; try reflexivity). discriminate.
Qed.

(** GetTempName computes [tempname] (the 16-bit counter is advanced first). *)
Theorem C56_tempname : forall w f d t pid, terminated w -> terminated f -> zlen w <= 32767 -> zlen f <= 32767 -> zlen d <= 32767 ->
  in_int 16 pid -> in_int 16 t ->
  let full := fullname (str_of w) (str_of f) in let t' := wrap_s 16 (t + 1) in
  In 47 full -> zlen full + 2 <= zlen d -> zlen (chop (str_of w)) + zlen (str_of f) + 2 <= zlen d ->
  zlen (dirpart full) + 15 < zlen d -> zlen (tempname full t' pid) < zlen d ->
  exists d', GetTempName w t pid f d = Ok (t', d') /\ str_of d' = tempname full t' pid.
Proof.
  intros w f d t pid Tw Tf Lw Lf Ld Hpid Ht full t' H47 L1 L2 L3 L4. unfold GetTempName.
  destruct (holds_term f Tf) as (fr & Ef & Nf). set (p := str_of f) in *.
  assert (G0 : getA f 0 = Ok (match p with c :: _ => c | [] => 0 end)).
  { rewrite Ef. destruct p as [|c p0]; cbn [app]; [apply (getA_at [] 0 fr)|apply (getA_at [] c (p0 ++ 0 :: fr))]. }
  rewrite G0, bind_ok.
  assert (N : exists d1, (if (match p with c :: _ => c | [] => 0 end) =? 47 then COPY f d else MakeFileName w f d) = Ok d1 /\ holds d1 full /\ zlen d1 = zlen d).
  { unfold full in *. rewrite fullname_eq in *. replace (match p with c :: _ => c =? 47 | [] => false end) with ((match p with c :: _ => c | [] => 0 end) =? 47) in *
      by (destruct p; reflexivity). destruct ((match p with c :: _ => c | [] => 0 end) =? 47).
    - destruct (copy_holds f d p) as (d1 & A & B & C); [apply holds_term; auto|lia|]. exists d1. auto.
    - pose proof (C22_makefilename w f d Tw Tf Lw Lf) as M. cbv zeta in M. fold p in M.
      replace (zlen (chop (str_of w)) + zlen p + 2 >? zlen d) with false in M by lia.
      destruct M as (d1 & A & B & C & D). exists d1. split; auto. split; auto. rewrite <- B. apply holds_term. auto. }
  destruct N as (d1 & E1 & Hd1 & Ld1). rewrite E1, bind_ok. rewrite Length_spec by lia. rewrite bind_ok.
  rewrite (holds_str _ _ Hd1). destruct Hd1 as (r & Er & Nr).
  destruct (dirpart_form full H47) as (a & b & Eab & Nb & Dp).
  assert (SL : slash_loop (S (length d1)) d1 (zlen full - 1) = Ok (zlen a)).
  { rewrite Er, Eab. rewrite <- app_assoc. cbn [app].
    replace (zlen (a ++ 47 :: b) - 1) with (zlen a + zlen b) by (rewrite zlen_app, zlen_cons; lia).
    apply slash_loop_spec; auto. rewrite !app_length. cbn [length]. rewrite !app_length. lia. }
  rewrite SL, bind_ok. rewrite Dp, zlen_snoc in L3. replace (zlen a + 16 >=? zlen d1) with false by lia. fold t'.
  (* write the fixed characters *)
  assert (T16 : in_int 16 t') by (apply wrap_s_range; lia). rewrite in_int16 in T16, Hpid.
  assert (Er2 : d1 = (a ++ [47]) ++ b ++ 0 :: r) by (rewrite Er, Eab, <- !app_assoc; reflexivity).
  set (a1 := a ++ [47]) in *. set (q0 := b ++ 0 :: r) in *.
  assert (La1 : zlen a1 = zlen a + 1) by apply zlen_snoc.
  unfold tempname in L4. rewrite Dp in L4. fold a1 in L4.
  assert (Ldq : zlen a1 + zlen q0 = zlen d) by (rewrite <- zlen_app, <- Er2; auto).
  rewrite !zlen_app, !zlen_cons in L4. change (zlen dottmp) with 5 in L4.
  pose proof (zlen_nonneg _ (rd t')). pose proof (zlen_nonneg _ (rd pid)).
  assert (W : forall (x : Z) (p0 q : list Z) i, zlen q > 0 -> i = zlen p0 -> exists q', setA (p0 ++ q) i x = Ok ((p0 ++ [x]) ++ q') /\ zlen q = zlen q' + 1).
  { intros x p0 q i Hq ->. destruct q as [|y q]; [rewrite zlen_nil in Hq; lia|]. exists q. rewrite setA_at, <- app_assoc, zlen_cons. split; [reflexivity|lia]. }
  rewrite Er2.
  destruct (W 46 a1 q0 (zlen a + 1)) as (q1 & -> & Q1); [lia|lia|]. rewrite bind_ok.
  destruct (W 116 (a1 ++ [46]) q1 (zlen a + 2)) as (q2 & -> & Q2); [lia|rewrite zlen_snoc; lia|]. rewrite bind_ok.
  destruct (W 109 ((a1 ++ [46]) ++ [116]) q2 (zlen a + 3)) as (q3 & -> & Q3); [lia|rewrite !zlen_snoc; lia|]. rewrite bind_ok.
  destruct (W 112 (((a1 ++ [46]) ++ [116]) ++ [109]) q3 (zlen a + 4)) as (q4 & -> & Q4); [lia|rewrite !zlen_snoc; lia|]. rewrite bind_ok.
  destruct (W 46 ((((a1 ++ [46]) ++ [116]) ++ [109]) ++ [112]) q4 (zlen a + 5)) as (q5 & -> & Q5); [lia|rewrite !zlen_snoc; lia|]. rewrite bind_ok.
  set (a2 := ((((a1 ++ [46]) ++ [116]) ++ [109]) ++ [112]) ++ [46]).
  assert (La2 : zlen a2 = zlen a + 6) by (unfold a2; rewrite !zlen_snoc; lia).
  rewrite <- La2. assert (RD : forall n, -32768 <= n <= 32767 -> revdigits 5 n = rd n).
  { intros n Hn. symmetry. apply (revdigits_more 5). change (10 ^ Z.of_nat 5) with 100000. lia. }
  rewrite (digits_loop_spec 5 t' a2 q5).
  2:{ rewrite RD by lia. lia. }
  2:{ change (10 ^ Z.of_nat 5) with 100000. lia. }
  rewrite bind_ok. cbv iota. cbv beta. rewrite (RD t') by lia.
  set (a3 := a2 ++ rd t'). rewrite <- zlen_app. fold a3.
  assert (La3 : zlen a3 = zlen a2 + zlen (rd t')) by (unfold a3; apply zlen_app).
  assert (Lq6 : zlen (skipn (length (rd t')) q5) = zlen q5 - zlen (rd t')) by (unfold zlen; rewrite skipn_length; unfold zlen in *; lia).
  destruct (W 46 a3 (skipn (length (rd t')) q5) (zlen a3)) as (q6 & -> & Q6); [lia|auto|]. rewrite bind_ok.
  rewrite <- zlen_snoc with (x := 46). rewrite (digits_loop_spec 5 pid (a3 ++ [46]) q6).
  2:{ rewrite RD by lia. lia. }
  2:{ change (10 ^ Z.of_nat 5) with 100000. lia. }
  rewrite bind_ok. cbv iota. cbv beta. rewrite (RD pid) by lia. rewrite <- zlen_app.
  assert (Lq7 : zlen (skipn (length (rd pid)) q6) = zlen q6 - zlen (rd pid)) by (unfold zlen; rewrite skipn_length; unfold zlen in *; lia).
  destruct (skipn (length (rd pid)) q6) as [|y q8] eqn:E8; [rewrite zlen_nil in Lq7; lia|]. rewrite setA_at, bind_ok.
  eexists. split; [reflexivity|]. rewrite str_of_app0.
  - unfold tempname. rewrite Dp. unfold a3, a2, a1, dottmp. rewrite <- !app_assoc. reflexivity.
  - unfold a3, a2, a1. rewrite !in_app_iff. cbn [In].
    assert (R0 : forall n, ~ In 0 (rd n)) by (intros n Q; apply revdigits_chars in Q; lia).
    pose proof (R0 t'). pose proof (R0 pid). assert (~ In 0 a) by (intro Q; apply Nr; rewrite Eab, in_app_iff; auto).
    intuition discriminate.
Qed.
Print Assumptions C56_tempname.

(** Two temporary names are equal only if directory, number and process number are: so no two temporary files of one
    process (numbers 0 to 32767) or of processes with different positive process numbers below 32768 share a name. *)
Theorem C56_unique_partial : forall full1 full2 n1 n2 pid1 pid2, In 47 full1 -> In 47 full2 ->
  0 <= n1 <= 32767 -> 0 <= n2 <= 32767 -> 0 <= pid1 <= 32767 -> 0 <= pid2 <= 32767 ->
  tempname full1 n1 pid1 = tempname full2 n2 pid2 -> dirpart full1 = dirpart full2 /\ n1 = n2 /\ pid1 = pid2.
Proof.
  intros full1 full2 n1 n2 pid1 pid2 H1 H2 Hn1 Hn2 Hp1 Hp2 E.
  destruct (dirpart_form full1 H1) as (a1 & b1 & _ & _ & D1). destruct (dirpart_form full2 H2) as (a2 & b2 & _ & _ & D2).
  unfold tempname in E. rewrite D1, D2 in *.
  assert (N : forall n pid, ~ In 47 (dottmp ++ rd n ++ 46 :: rd pid)).
  { intros n pid Q. unfold dottmp in Q. rewrite !in_app_iff in Q. cbn [In] in Q.
    destruct Q as [Q|[Q|[Q|Q]]]; [repeat (destruct Q as [Q|Q]; try discriminate); auto|apply revdigits_chars in Q; lia|discriminate|apply revdigits_chars in Q; lia]. }
  assert (A : a1 ++ [47] = a2 ++ [47]).
  { pose proof (dirpart_app a1 _ (N n1 pid1)) as A1. pose proof (dirpart_app a2 _ (N n2 pid2)) as A2.
    rewrite <- !app_assoc in E. cbn [app] in E. cbn [app] in A1, A2. rewrite E in A1. congruence. }
  rewrite A in E. apply app_inv_head in E. unfold dottmp in E. apply app_inv_head in E. split; auto.
  assert (S : forall x y (u v : list Z), ~ In 46 x -> ~ In 46 y -> x ++ 46 :: u = y ++ 46 :: v -> x = y /\ u = v).
  { induction x as [|c x IH]; intros [|e y] u v Nx Ny Q; cbn [app] in Q.
    - inversion Q; auto.
    - inversion Q; subst. exfalso. apply Ny. left; auto.
    - inversion Q; subst. exfalso. apply Nx. left; auto.
    - inversion Q; subst. destruct (IH y u v) as [X Y]; auto; [intro; apply Nx; right; auto|intro; apply Ny; right; auto|]. split; congruence. }
  assert (D46 : forall n, ~ In 46 (rd n)) by (intros n Q; apply revdigits_chars in Q; lia).
  destruct (S _ _ _ _ (D46 n1) (D46 n2) E) as [E1 E2]. split.
  - apply (revdigits_inj 6) in E1; auto; change (10 ^ Z.of_nat 6) with 1000000; lia.
  - apply (revdigits_inj 6) in E2; auto; change (10 ^ Z.of_nat 6) with 1000000; lia.
Qed.
Print Assumptions C56_unique_partial.

(** A temporary name is never a final name, unless that one starts with ".tmp." itself. *)
Theorem C56_not_final : forall full reg n pid, In 47 full -> In 47 reg ->
  (forall r, reg <> dirpart reg ++ dottmp ++ r) -> tempname full n pid <> reg.
Proof.
  intros full reg n pid H1 H2 N E. destruct (dirpart_form full H1) as (a & b & _ & _ & D).
  assert (Q : ~ In 47 (dottmp ++ rd n ++ 46 :: rd pid)).
  { intros Q. unfold dottmp in Q. rewrite !in_app_iff in Q. cbn [In] in Q.
    destruct Q as [Q|[Q|[Q|Q]]]; [repeat (destruct Q as [Q|Q]; try discriminate); auto|apply revdigits_chars in Q; lia|discriminate|apply revdigits_chars in Q; lia]. }
  apply (N (rd n ++ 46 :: rd pid)). rewrite <- E at 2. unfold tempname. rewrite D, <- app_assoc. cbn [app].
  pose proof (dirpart_app a _ Q) as P. cbn [app] in P. rewrite P. rewrite <- E. unfold tempname. rewrite D. reflexivity.
Qed.
Print Assumptions C56_not_final.

(** The full claim fails twice.  The counter is a 16-bit INTEGER: after 32768 names it turns negative and prints nothing,
    so the name of the first temporary file is made again. *)
Theorem C56_counter_wraps_refuted : exists w f d pid d1 d2, let t := 32767 in
  GetTempName w (-1) pid f d = Ok (0, d1) /\ GetTempName w t pid f d = Ok (wrap_s 16 (t + 1), d2) /\ wrap_s 16 (t + 1) <> 0 /\ d1 = d2.
Proof.
  exists [47; 104; 0], [120; 0], (repeat 0 256), 77. do 2 eexists. cbv zeta. split; [vm_compute; reflexivity|].
  split; [vm_compute; reflexivity|]. split; [vm_compute; discriminate|reflexivity].
Qed.
Print Assumptions C56_counter_wraps_refuted.
(** Platformunix.Mod 23, 438: the process number is truncated to 16 bits ((INTEGER)getpid()): two processes whose numbers
    are 40000 and 50000 use the same temporary names. *)
Theorem C56_pid_truncated_refuted : exists w f d t osp1 osp2 t1 d1 d2, 0 < osp1 < 4194304 /\ 0 < osp2 < 4194304 /\ osp1 <> osp2 /\
  GetTempName w t (wrap_s 16 osp1) f d = Ok (t1, d1) /\ GetTempName w t (wrap_s 16 osp2) f d = Ok (t1, d2) /\ d1 = d2.
Proof.
  exists [47; 104; 0], [120; 0], (repeat 0 256), 3, 40000, 50000. do 3 eexists. split; [lia|]. split; [lia|]. split; [lia|].
  split; [vm_compute; reflexivity|]. split; [vm_compute; reflexivity|reflexivity].
Qed.
Print Assumptions C56_pid_truncated_refuted.

(** Non-vacuity: /h/.tmp.21.123 for final name x, current directory /h, counter 11, process 321. *)
Example C56_nonvacuous : exists d', GetTempName [47; 104; 0] 11 321 [120; 0] (repeat 0 256) = Ok (12, d') /\
  str_of d' = tempname [47; 104; 47; 120] 12 321 /\
  str_of d' = [47; 104; 47; 46; 116; 109; 112; 46; 50; 49; 46; 49; 50; 51].
Proof. eexists. split; [vm_compute; reflexivity|]. vm_compute. auto. Qed.
