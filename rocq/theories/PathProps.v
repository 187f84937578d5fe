(** Properties C22 (path names) and C56 (temporary names). *)
From Verif Require Import Base ArrZ StringsModel StringsSpec StringsProofs CStrModel CStrProofs CStrProps PathModel PathSpec PathProofs.

(** Trim computes the documented result whenever the result fits and no component is longer than its local array. *)
Theorem C22_trim : forall s d, terminated s -> 1 <= zlen d ->
  Forall (fun c => zlen c < 1024) (split (unbs (str_of s))) -> zlen (trim (str_of s)) < zlen d ->
  exists d', Trim s d = Ok d' /\ str_of d' = trim (str_of s) /\ terminated d' /\ zlen d' = zlen d.
Proof.
  intros s d T L1 Fp L. destruct (Trim_spec s d T L1 Fp L) as (d' & A & B & C). exists d'. split; auto.
  split; [apply holds_str; auto|]. split; auto. eapply holds_terminated; eauto.
Qed.
Print Assumptions C22_trim.

(** Canonical form: trimming again changes nothing. *)
Theorem C22_trim_idempotent : forall s d e, terminated s -> 1 <= zlen d ->
  Forall (fun c => zlen c < 1024) (split (unbs (str_of s))) ->
  zlen (trim (str_of s)) < zlen d -> zlen (trim (str_of s)) < zlen e ->
  exists d' e', Trim s d = Ok d' /\ Trim d' e = Ok e' /\ str_of e' = str_of d'.
Proof.
  intros s d e T L1 Fp L Le. destruct (C22_trim s d T L1 Fp L) as (d' & A & B & C & D).
  destruct (C22_trim d' e C) as (e' & A' & B' & C' & D').
  - pose proof (zlen_nonneg _ (trim (str_of s))). lia.
  - rewrite B, (unbs_id (trim (str_of s))) by apply trim_no92. unfold trim. rewrite split_repeat, Forall_app. split.
    + clear. induction (Nat.min 2 (lead (unbs (str_of s)))); cbn [repeat]; constructor; auto. rewrite zlen_nil. lia.
    + pose proof (good_parts (unbs (str_of s))) as G. set (l := filter keep (split (unbs (str_of s)))) in *.
      assert (Fl : Forall (fun c => zlen c < 1024) l).
      { apply Forall_forall. intros c Hc. unfold l in Hc. apply filter_In in Hc. destruct Hc. rewrite Forall_forall in Fp. auto. }
      destruct l as [|c l]; [repeat constructor|]. rewrite split_join; auto; [|discriminate].
      eapply Forall_impl; [|exact G]. intros a [_ Q]. exact Q.
  - rewrite B, trim_idem. auto.
  - exists d', e'. split; auto. split; auto. rewrite B', B, trim_idem. reflexivity.
Qed.
Print Assumptions C22_trim_idempotent.

(** The trimmed path denotes the same file: every file system, every path without '\' that denotes something, provided
    there are at most two leading '/' (or '//' means '/', as on Linux) and something is left. *)
Theorem C22_trim_denotes : forall F p m, wf F -> ~ In 92 p -> root2 F = root F \/ (lead p <= 2)%nat ->
  denotes F p = Some m -> trim p <> [] -> denotes F (trim p) = Some m.
Proof.
  intros F p m (W1 & W2 & W3) N R H NE. unfold denotes in *. destruct p as [|c p]; [discriminate|]. set (q := c :: p) in *.
  assert (S : start F (trim q) = start F q).
  { unfold start. rewrite trim_lead, unbs_id by auto. destruct (lead q) as [|[|[|n]]]; try reflexivity. cbn [Nat.min].
    destruct R as [R|R]; [exact R|lia]. }
  assert (DS : isdir F (start F q) = true) by (unfold start; destruct (lead q) as [|[|[|n]]]; auto).
  assert (G : walk F (start F q) (split (trim q)) = Some m).
  { unfold trim. rewrite split_repeat, walk_empty.
    - pose proof (good_parts (unbs q)) as G. rewrite (unbs_id q N) in *. apply walk_filter in H.
      destruct (filter keep (split q)) as [|x l] eqn:E.
      + cbn [join split walk]. rewrite DS. exact H.
      + rewrite split_join; auto; [|discriminate]. eapply Forall_impl; [|exact G]. intros a [_ Q]. exact Q.
    - exact DS. }
  rewrite S. destruct (trim q); [congruence|exact G].
Qed.
Print Assumptions C22_trim_denotes.

(** Absolute paths stay absolute and relative ones relative. *)
Theorem C22_trim_absolute : forall p, (lead (trim p) = O <-> lead (unbs p) = O).
Proof. intro p. rewrite trim_lead. lia. Qed.
Print Assumptions C22_trim_absolute.

(** Canonify: an absolute name is copied, another is put behind the current directory. *)
Definition absolute (p : list Z) : bool :=
  match p with [] => false | c :: r => (c =? 47) || (c =? 92) || (match r with x :: _ => x =? 58 | [] => false end) end.
Definition canon (w p : list Z) : list Z := if absolute p then p else ap 47 p w.

Lemma copy_holds : forall s d p, holds s p -> zlen p < zlen d -> exists d', COPY s d = Ok d' /\ holds d' p /\ zlen d' = zlen d.
Proof.
  intros s d p H L. pose proof (holds_str _ _ H) as E.
  destruct (C07_copy s d) as (k & d' & A & B & C & D & K & _).
  - left. eapply holds_terminated; eauto.
  - unfold zlen in *. lia.
  - exists d'. split; auto. split; [|unfold zlen; lia]. pose proof (holds_term d' C) as Hd. rewrite D, E in Hd.
    rewrite firstn_all2 in Hd; auto. rewrite E in K. unfold zlen in *. lia.
Qed.
Lemma IsAbsolute_spec : forall s p, holds s p -> IsAbsolute s = Ok (absolute p).
Proof.
  intros s p (r & -> & H). unfold IsAbsolute. destruct p as [|c p].
  - cbn [app]. rewrite (getA_at [] 0 r : getA (0 :: r) 0 = _), bind_ok. reflexivity.
  - cbn [app]. rewrite (getA_at [] c (p ++ 0 :: r) : getA (c :: p ++ 0 :: r) 0 = _), bind_ok.
    destruct (c =? 0) eqn:E; [exfalso; apply H; left; lia|]. rewrite IsOneOf_seps, bind_ok. cbn [absolute].
    destruct ((c =? 47) || (c =? 92)) eqn:E1; cbn [orb]; [reflexivity|].
    destruct p as [|x p]; cbn [app].
    + rewrite (getA_at [c] 0 r : getA (c :: 0 :: r) 1 = _), bind_ok. reflexivity.
    + rewrite (getA_at [c] x (p ++ 0 :: r) : getA (c :: x :: p ++ 0 :: r) 1 = _), bind_ok. reflexivity.
Qed.
Theorem C22_canonify : forall w s d, terminated w -> terminated s ->
  zlen (str_of w) < zlen d -> zlen (canon (str_of w) (str_of s)) < zlen d ->
  exists d', Canonify w s d = Ok d' /\ str_of d' = canon (str_of w) (str_of s) /\ zlen d' = zlen d.
Proof.
  intros w s d Tw Ts L1 L2. unfold Canonify, canon in *. rewrite (IsAbsolute_spec s (str_of s)) by (apply holds_term; auto).
  rewrite bind_ok. destruct (absolute (str_of s)).
  - destruct (copy_holds s d (str_of s)) as (d' & A & B & C); auto; [apply holds_term; auto|]. exists d'. split; auto.
    split; auto. apply holds_str; auto.
  - destruct (copy_holds w d (str_of w)) as (d1 & A & B & C); auto; [apply holds_term; auto|]. rewrite A, bind_ok.
    destruct (AppendPart_spec 47 s d1 (str_of s) (str_of w)) as (d' & A' & B' & C'); auto; try lia.
    + apply holds_term; auto.
    + exists d'. split; auto. split; [apply holds_str; auto|lia].
Qed.
Print Assumptions C22_canonify.

Lemma split_app47 : forall a b, split (a ++ 47 :: b) = split a ++ split b.
Proof.
  induction a as [|c a IH]; intro b; [reflexivity|]. cbn [app split]. destruct (c =? 47); [rewrite IH; reflexivity|].
  rewrite IH. pose proof (split_ne a). destruct (split a); [congruence|reflexivity].
Qed.
Lemma lead_app0 : forall a b, lead b = O -> lead (a ++ b) = lead a.
Proof. induction a as [|c a IH]; intros b H; [exact H|]. cbn [app lead]. destruct (c =? 47); [f_equal; auto|reflexivity]. Qed.
Lemma lead_app_last : forall a b, a <> [] -> last a 0 <> 47 -> lead (a ++ b) = lead a.
Proof.
  induction a as [|c a IH]; intros b H L; [congruence|]. cbn [app lead]. destruct (c =? 47) eqn:E; [|reflexivity]. f_equal.
  destruct a as [|x a]; [cbn [last] in L; lia|]. apply IH; [discriminate|exact L].
Qed.

(** Whatever a name denotes from the current directory, its canonical form denotes: [w] is the current directory's
    absolute name. *)
Theorem C22_canonify_denotes : forall F w p m, wf F -> denotes F w = Some (cwd F) -> (1 <= lead w)%nat -> ~ In 92 p ->
  walk F (start F p) (split p) = Some m -> denotes F (canon w p) = Some m.
Proof.
  intros F w p m (W1 & W2 & W3) Hw Lw N H. unfold canon. destruct (absolute p) eqn:A.
  - unfold denotes. destruct p; [discriminate|exact H].
  - assert (Lp : lead p = O).
    { destruct p as [|c p]; [reflexivity|]. cbn [absolute] in A. cbn [lead]. destruct (c =? 47); [discriminate|reflexivity]. }
    unfold start in H. rewrite Lp in H. unfold denotes in Hw. destruct w as [|c0 w0]; [discriminate|]. set (w := c0 :: w0) in *.
    assert (NE : w <> []) by discriminate.
    assert (G : start F (ap 47 p w) = start F w /\ walk F (start F w) (split (ap 47 p w)) = Some m).
    { destruct (Z.eq_dec (last w 0) 47) as [E|E].
      - rewrite ap_sl by auto. unfold start. rewrite lead_app0 by auto. split; auto.
        destruct (exists_last NE) as (w' & x & Ew). rewrite Ew in E. rewrite last_last in E. subst x.
        rewrite Ew in Hw |- *. rewrite <- app_assoc. cbn [app]. rewrite split_app47 in *. fold (start F (w' ++ [47])).
        rewrite walk_app in *. destruct (walk F (start F (w' ++ [47])) (split w')) as [n|]; [|discriminate].
        cbn [split walk] in Hw. destruct (isdir F n); [|discriminate]. inversion Hw; subst. exact H.
      - rewrite ap_nosl by auto. unfold start. rewrite lead_app_last by auto. split; auto. fold (start F w).
        rewrite split_app47, walk_app, Hw. exact H. }
    destruct G as [G1 G2]. rewrite <- G1 in G2. unfold denotes. destruct (ap 47 p w) eqn:E; [|exact G2].
    unfold ap in E. apply app_eq_nil in E. destruct E as [E _]. destruct ((0 <? zlen w) && negb (last w 0 =? 47)); [|congruence].
    apply app_eq_nil in E. destruct E; congruence.
Qed.
Print Assumptions C22_canonify_denotes.

(** Trim then Canonify, as used to find the directory of the running program. *)
Theorem C22_program_path : forall F w p m, wf F -> denotes F w = Some (cwd F) -> (1 <= lead w)%nat -> ~ In 92 p ->
  root2 F = root F \/ (lead p <= 2)%nat -> denotes F p = Some m -> denotes F (canon w (trim p)) = Some m.
Proof.
  intros F w p m W Hw Lw N R H. apply C22_canonify_denotes; auto; [apply trim_no92|].
  destruct (trim p) as [|c q] eqn:E.
  - destruct W as (W1 & W2 & W3). cbn [split walk start lead]. rewrite W1.
    assert (T : filter keep (split p) = [] /\ lead p = O).
    { pose proof (trim_parts p) as T. pose proof (trim_lead p) as T2. rewrite E in T, T2. cbn [split filter keep lead] in T, T2.
      rewrite (unbs_id p N) in *. split; [auto|lia]. }
    destruct T as [T1 T2]. unfold denotes in H. destruct p; [discriminate|]. apply walk_filter in H. rewrite T1 in H.
    unfold start in H. rewrite T2 in H. exact H.
  - rewrite <- E. assert (NE : trim p <> []) by (rewrite E; discriminate).
    pose proof (C22_trim_denotes F p m W N R H NE) as G. unfold denotes in G. destruct (trim p); [congruence|exact G].
Qed.
Print Assumptions C22_program_path.

(** Limits of Trim.  "." becomes the empty path, which denotes nothing; three leading '/' become two; '\' is a separator
    although Unix allows it in file names. *)
Theorem C22_trim_dot_refuted : exists p, trim p = [] /\ forall F, wf F -> denotes F p = Some (cwd F) /\ denotes F (trim p) = None.
Proof.
  exists [46]. split; [reflexivity|]. intros F (W1 & _). split; [|reflexivity]. cbn. rewrite W1. reflexivity.
Qed.
Print Assumptions C22_trim_dot_refuted.
Definition demo_fs : fsys := mkfs Z (fun n c => match c with [120] => Some (n + 1) | [97; 92; 98] => Some 50 | _ => None end) (fun _ => true) 10 20 30.
Theorem C22_trim_slashes_refuted : exists F p m m', wf F /\ ~ In 92 p /\ denotes F p = Some m /\ denotes F (trim p) = Some m' /\ m <> m'.
Proof.
  exists demo_fs, [47; 47; 47; 120], 21, 31. split; [repeat split|]. split; [intros [|[|[|[|[]]]]]; discriminate|].
  split; [reflexivity|]. split; [reflexivity|discriminate].
Qed.
Print Assumptions C22_trim_slashes_refuted.
Theorem C22_trim_backslash_refuted : exists F p m, wf F /\ denotes F p = Some m /\ denotes F (trim p) = None.
Proof. exists demo_fs, [97; 92; 98], 50. split; [repeat split|]. split; reflexivity. Qed.
Print Assumptions C22_trim_backslash_refuted.

(** ** MakeFileName *)
Fixpoint chop (d : list Z) : list Z :=
  match d with [] => [] | c :: r => match chop r with [] => if c =? 47 then [] else [c] | q => c :: q end end.
Definition mkname (dir name : list Z) : list Z := match chop dir with [] => name | d => d ++ 47 :: name end.
Lemma chop_app : forall d, exists k, d = chop d ++ repeat 47 k.
Proof.
  induction d as [|c d (k & E)]; [exists O; reflexivity|]. cbn [chop]. destruct (chop d) as [|x q] eqn:C.
  - cbn [app] in E. destruct (c =? 47) eqn:E1.
    + exists (S k). cbn [repeat app]. f_equal; [lia|auto].
    + exists k. cbn [app]. congruence.
  - exists k. cbn [app]. f_equal. exact E.
Qed.
Lemma chop_last : forall d, chop d = [] \/ last (chop d) 0 <> 47.
Proof.
  induction d as [|c d IH]; [left; reflexivity|]. cbn [chop]. destruct (chop d) as [|x q] eqn:C.
  - destruct (c =? 47) eqn:E; [left; auto|]. right. cbn [last]. lia.
  - right. destruct IH as [IH|IH]; [discriminate|]. exact IH.
Qed.
Lemma chop_loop_spec : forall k fuel (q r : list Z), (q = [] \/ last q 0 <> 47) -> (k < fuel)%nat ->
  chop_loop fuel (q ++ repeat 47 k ++ r) (zlen q + Z.of_nat k) = Ok (zlen q).
Proof.
  induction k as [|k IH]; intros fuel q r H F; (destruct fuel as [|fuel]; [lia|]); cbn [chop_loop].
  - rewrite Z.add_0_r. cbn [repeat app]. destruct H as [->|H]; [reflexivity|].
    destruct (zlen q >? 0) eqn:E; [|reflexivity]. rewrite getA_last by (intro Q; rewrite Q, zlen_nil in E; lia).
    rewrite bind_ok. replace (last q 0 =? 47) with false by lia. reflexivity.
  - pose proof (zlen_nonneg _ q). replace (zlen q + Z.of_nat (S k) >? 0) with true by lia.
    replace (zlen q + Z.of_nat (S k) - 1) with (zlen (q ++ repeat 47 k)) by (rewrite zlen_app; unfold zlen; rewrite repeat_length; lia).
    replace (q ++ repeat 47 (S k) ++ r) with ((q ++ repeat 47 k) ++ 47 :: r).
    2:{ rewrite <- app_assoc. f_equal. change (47 :: r) with ([47] ++ r). rewrite app_assoc. f_equal. symmetry. apply (repeat_cons k 47). }
    rewrite getA_at, bind_ok. cbn [Z.eqb Pos.eqb].
    rewrite <- app_assoc. replace (zlen (q ++ repeat 47 k)) with (zlen q + Z.of_nat k) by (rewrite zlen_app; unfold zlen; rewrite repeat_length; lia).
    apply IH; auto. lia.
Qed.
Lemma copyn_spec : forall p fuel sp sr dp dq, zlen p <= zlen dq -> (length p < fuel)%nat ->
  copyn fuel (sp ++ p ++ sr) (zlen sp) (zlen sp + zlen p) (dp ++ dq) (zlen dp) = Ok ((dp ++ p) ++ skipn (length p) dq, zlen dp + zlen p).
Proof.
  induction p as [|c p IH]; intros fuel sp sr dp dq L F; (destruct fuel as [|fuel]; [cbn [length] in F; lia|]); cbn [copyn].
  - rewrite zlen_nil, !Z.add_0_r. replace (zlen sp <? zlen sp) with false by lia. rewrite app_nil_r. reflexivity.
  - rewrite zlen_cons in *. pose proof (zlen_nonneg _ p). replace (zlen sp <? zlen sp + (1 + zlen p)) with true by lia.
    cbn [app]. rewrite getA_at, bind_ok. destruct dq as [|y dq]; [rewrite zlen_nil in L; lia|]. rewrite setA_at, bind_ok.
    rewrite zlen_cons in L.
    replace (sp ++ c :: p ++ sr) with ((sp ++ [c]) ++ p ++ sr) by (rewrite <- app_assoc; reflexivity).
    replace (dp ++ c :: dq) with ((dp ++ [c]) ++ dq) by (rewrite <- app_assoc; reflexivity).
    replace (zlen sp + (1 + zlen p)) with (zlen (sp ++ [c]) + zlen p) by (rewrite zlen_snoc; lia).
    rewrite <- !zlen_snoc with (x := c). rewrite IH; [|lia|cbn [length] in F; lia].
    rewrite <- !app_assoc. cbn [app length skipn]. rewrite zlen_app, zlen_cons, zlen_nil. do 2 f_equal. lia.
Qed.

Theorem C22_makefilename : forall dir name dest, terminated dir -> terminated name -> zlen dir <= 32767 -> zlen name <= 32767 ->
  let r := mkname (str_of dir) (str_of name) in
  if zlen (chop (str_of dir)) + zlen (str_of name) + 2 >? zlen dest then MakeFileName dir name dest = Trap 99
  else exists dest', MakeFileName dir name dest = Ok dest' /\ str_of dest' = r /\ terminated dest' /\ zlen dest' = zlen dest.
Proof.
  intros dir name dest Td Tn Ld Ln r. unfold MakeFileName. rewrite !Length_spec by auto. rewrite !bind_ok.
  destruct (holds_term dir Td) as (dr & Ed & Nd). destruct (holds_term name Tn) as (nr & En & Nn).
  set (p := str_of dir) in *. set (q := str_of name) in *. destruct (chop_app p) as (k & Ek). set (c := chop p) in *.
  assert (Lp : zlen p = zlen c + Z.of_nat k) by (rewrite Ek, zlen_app; unfold zlen at 2; rewrite repeat_length; reflexivity).
  assert (Ed' : dir = c ++ repeat 47 k ++ 0 :: dr) by (rewrite app_assoc, <- Ek; exact Ed).
  pose proof (chop_loop_spec k (S (length dir)) c (0 :: dr) (chop_last p)) as CL. rewrite <- Ed', <- Lp in CL. rewrite CL.
  2:{ apply (f_equal (@length Z)) in Ed'. rewrite !app_length, repeat_length in Ed'. lia. }
  rewrite bind_ok. destruct (zlen c + zlen q + 2 >? zlen dest) eqn:E; [reflexivity|].
  pose proof (zlen_nonneg _ c). pose proof (zlen_nonneg _ q).
  pose proof (copyn_spec c (S (length dir)) [] (repeat 47 k ++ 0 :: dr) [] dest ltac:(lia)) as C1. cbn [app] in C1. rewrite zlen_nil, Z.add_0_l in C1.
  rewrite <- Ed' in C1. rewrite C1.
  2:{ apply (f_equal (@length Z)) in Ed'. rewrite !app_length in Ed'. lia. }
  rewrite bind_ok. cbv iota. cbv beta.
  set (c' := match c with [] => [] | _ => c ++ [47] end).
  assert (Step : exists dq, (if zlen c >? 0 then let* d := setA (c ++ skipn (length c) dest) (zlen c) 47 in Ok (d, zlen c + 1)
      else Ok (c ++ skipn (length c) dest, zlen c)) = Ok (c' ++ dq, zlen c') /\ zlen c' + zlen dq = zlen dest /\ zlen q < zlen dq).
  { destruct (skipn_cons_ex _ (length c) dest) as (y & w & Ew); [unfold zlen in *; lia|]. rewrite Ew.
    assert (Lw : zlen dest = zlen c + 1 + zlen w).
    { rewrite <- (firstn_skipn (length c) dest), Ew, zlen_app, zlen_cons. unfold zlen. rewrite firstn_length. unfold zlen in *. lia. }
    destruct (zlen c >? 0) eqn:E1.
    - rewrite setA_at, bind_ok. assert (Q : c' = c ++ [47]) by (unfold c'; destruct c; [rewrite zlen_nil in E1; lia|reflexivity]).
      exists w. rewrite Q, zlen_snoc, <- app_assoc. cbn [app]. split; [reflexivity|]. lia.
    - assert (Q : c = []) by (destruct c; [auto|rewrite zlen_cons in E1; pose proof (zlen_nonneg _ c); lia]).
      unfold c'. rewrite Q in *. rewrite zlen_nil in *. cbn [app] in *. exists (y :: w). rewrite zlen_cons. split; [reflexivity|]. lia. }
  destruct Step as (dq & St & L1 & L2). rewrite St, bind_ok. cbv iota. cbv beta.
  pose proof (copyn_spec q (S (length name)) [] (0 :: nr) c' dq ltac:(lia)) as C2. cbn [app] in C2. rewrite zlen_nil, Z.add_0_l in C2.
  rewrite <- En in C2. rewrite C2.
  2:{ apply (f_equal (@length Z)) in En. rewrite !app_length in En. lia. }
  rewrite bind_ok. cbv iota. cbv beta. rewrite <- zlen_app.
  destruct (skipn_cons_ex _ (length q) dq) as (y & w & Ew); [unfold zlen in *; lia|]. rewrite Ew, setA_at.
  eexists. split; [reflexivity|].
  assert (R : c' ++ q = r).
  { unfold r, mkname. fold p q. fold c. unfold c'. destruct c; [reflexivity|]. rewrite <- app_assoc. reflexivity. }
  assert (Hh : holds ((c' ++ q) ++ 0 :: w) r).
  { exists w. split; [congruence|]. rewrite <- R. intro Q. apply in_app_or in Q. destruct Q as [Q|Q]; [|auto].
    assert (Nc : ~ In 0 c) by (intro W; apply Nd; rewrite Ek, in_app_iff; auto).
    unfold c' in Q. destruct c; [contradiction|]. apply in_app_or in Q. destruct Q as [Q|[Q|[]]]; [auto|discriminate]. }
  split; [apply holds_str; auto|]. split; [eapply holds_terminated; eauto|].
  assert (zlen dq = zlen q + 1 + zlen w).
  { rewrite <- (firstn_skipn (length q) dq), Ew, zlen_app, zlen_cons. unfold zlen. rewrite firstn_length. unfold zlen in *. lia. }
  rewrite !zlen_app, zlen_cons. lia.
Qed.
Print Assumptions C22_makefilename.

(** The joined name denotes the entry [name] of the directory [dir], unless dir consists of '/' only. *)
Theorem C22_makefilename_denotes : forall F dir name n, wf F -> denotes F dir = Some n -> chop dir <> [] ->
  denotes F (mkname dir name) = walk F n (split name).
Proof.
  intros F dir name n (W1 & W2 & W3) H NE. unfold mkname. destruct (chop_app dir) as (k & Ek). pose proof (chop_last dir) as CL.
  destruct (chop dir) as [|x c0] eqn:C; [congruence|]. set (c := x :: c0) in *. destruct CL as [CL|CL]; [discriminate|].
  unfold denotes in *. destruct dir as [|y dir]; [discriminate|].
  assert (S : start F (y :: dir) = start F c) by (unfold start; rewrite Ek, lead_app_last by auto; reflexivity).
  assert (S2 : start F (c ++ 47 :: name) = start F c) by (unfold start; rewrite lead_app_last by auto; reflexivity).
  rewrite S in H. destruct (c ++ 47 :: name) eqn:Q; [destruct c; discriminate|]. rewrite S2, <- Q, split_app47, walk_app.
  assert (W : walk F (start F c) (split c) = Some n).
  { rewrite Ek in H. destruct k as [|k]; [cbn [repeat] in H; rewrite app_nil_r in H; exact H|].
    cbn [repeat] in H. rewrite split_app47, walk_app in H. destruct (walk F (start F c) (split c)) as [m|]; [|discriminate].
    assert (T : forall j m', walk F m' (split (repeat 47 j)) = Some n -> m' = n).
    { clear. induction j; intros m' H; cbn [repeat split Z.eqb Pos.eqb walk] in H; (destruct (isdir F m'); [|discriminate]); [inversion H; auto|auto]. }
    f_equal. eapply T; eauto. }
  rewrite W. reflexivity.
Qed.
Print Assumptions C22_makefilename_denotes.
(** For the root directory the '/' is lost: the name is looked up in the current directory. *)
Theorem C22_makefilename_root_refuted : exists F dir name n d', wf F /\ denotes F (str_of dir) = Some n /\
  MakeFileName dir name (repeat 0 256) = Ok d' /\ denotes F (str_of d') <> walk F n (split (str_of name)).
Proof.
  exists demo_fs, [47; 0], [120; 0], 20, (120 :: repeat 0 255). split; [repeat split|]. split; [reflexivity|].
  split; [vm_compute; reflexivity|]. vm_compute. discriminate.
Qed.
Print Assumptions C22_makefilename_root_refuted.

Example C22_nonvacuous :
  Trim [47; 97; 47; 47; 46; 47; 98; 47; 0] (repeat 1 20) = Ok ([47; 97; 47; 98; 0] ++ repeat 1 15) /\
  trim [47; 97; 47; 47; 46; 47; 98; 47] = [47; 97; 47; 98] /\
  denotes demo_fs [46; 47; 120; 47; 47; 120] = Some 12 /\ denotes demo_fs (trim [46; 47; 120; 47; 47; 120]) = Some 12.
Proof. vm_compute. auto. Qed.
