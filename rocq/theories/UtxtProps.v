(** C100: dynamic texts. *)
From Verif Require Import Base ArrZ UtxtModel UtxtSpec.

Lemma bok : forall A B (a : A) (k : A -> res B), bind (Ok a) k = k a. Proof. reflexivity. Qed.
(** The text t holds the bytes s; the chain has cnt full buffers. *)
Definition at_byte (ch : list (list Z)) (p : Z) : Z := ix (nth (Z.to_nat (p / 512)) ch []) (p mod 512).
Definition rep (t : text) (s : list Z) (p : nat) : Prop :=
  pos t = Z.of_nat p /\ len t = zlen s /\ (p <= length s)%nat /\ cnt t = zlen (chain t) /\ len t <= 512 * cnt t /\ Forall (fun b : list Z => zlen b = 512) (chain t) /\
  forall q, 0 <= q < zlen s -> at_byte (chain t) q = ix s q.
Lemma buf_len : forall ch b, Forall (fun b : list Z => zlen b = 512) ch -> 0 <= b < zlen ch -> zlen (nth (Z.to_nat b) ch []) = 512.
Proof. intros ch b F B. rewrite Forall_forall in F. apply F. apply nth_In. unfold zlen in B. lia. Qed.
Lemma access_ok : forall t s p, rep t s p -> exists t', Access t = Ok (Z.of_nat p / 512, t') /\ rep t' s p /\ Z.of_nat p / 512 < zlen (chain t').
Proof.
  intros t s p (P & L & PL & C & LC & F & B). unfold Access. change bufsize with 512. rewrite P. pose proof (zlen_nonneg _ (chain t)). unfold zlen in L at 1. destruct (512 * cnt t <=? Z.of_nat p) eqn:E.
  - eexists. replace (zlen (chain t)) with (Z.of_nat p / 512) by lia. split; [reflexivity|]. cbn [chain]. rewrite zlen_app. change (zlen [repeat 0 512]) with 1.
    split; [|lia]. unfold rep. cbn [pos len cnt chain]. rewrite zlen_app. change (zlen [repeat 0 512]) with 1. split; [reflexivity|]. split; [exact L|]. split; [exact PL|]. split; [lia|]. split; [lia|]. split; [apply Forall_app; split; [exact F|constructor; [reflexivity|constructor]]|].
    intros q Q. rewrite <- B by exact Q. unfold at_byte. rewrite app_nth1; [reflexivity|]. unfold zlen in *. lia.
  - replace (Z.of_nat p / 512 <? zlen (chain t)) with true by lia. exists t. split; [reflexivity|]. split; [repeat split; auto|]. lia.
Qed.
Lemma set_list : forall (s : list Z) p x, (p <= length s)%nat -> (forall q, 0 <= q < zlen (overwrite s p [x]) -> ix (overwrite s p [x]) q = if q =? Z.of_nat p then x else ix s q) /\ zlen (overwrite s p [x]) = Z.max (zlen s) (Z.of_nat p + 1).
Proof.
  intros s p x P. unfold overwrite. cbn [length]. assert (L1 : zlen (firstn p s) = Z.of_nat p) by (unfold zlen; rewrite firstn_length; lia). assert (L2 : zlen (skipn (p + 1) s) = Z.max 0 (zlen s - Z.of_nat p - 1)) by (unfold zlen; rewrite skipn_length; lia).
  rewrite !zlen_app, L1, L2. change (zlen [x]) with 1. split; [|lia]. intros q Q. rewrite ix_app, L1 by lia. destruct (q <? Z.of_nat p) eqn:E1.
  - replace (q =? Z.of_nat p) with false by lia. replace p with (Z.to_nat (Z.of_nat p)) by lia. apply ix_firstn. lia.
  - rewrite ix_app by lia. change (zlen [x]) with 1. destruct (q =? Z.of_nat p) eqn:E2; [replace (q - Z.of_nat p) with 0 by lia; reflexivity|]. replace (q - Z.of_nat p <? 1) with false by lia. replace (p + 1)%nat with (Z.to_nat (Z.of_nat p + 1)) by lia.
    idtac. rewrite ix_skipn by lia. f_equal. lia.
Qed.
(** One byte written at the position. *)
Definition advance (t : text) : text := let t := setpos t (pos t + 1) in if len t <? pos t then setlen t (pos t) else t.
Lemma put_ok : forall t s p x, rep t s p -> Z.of_nat p / 512 < zlen (chain t) -> exists t', put t (Z.of_nat p / 512) (Z.of_nat p mod 512) x = Ok t' /\ rep (advance t') (overwrite s p [x]) (S p) /\ zlen (chain (advance t')) = zlen (chain t).
Proof.
  intros t s p x (P & L & PL & C & LC & F & B) A. unfold put, buffer. pose proof (buf_len (chain t) (Z.of_nat p / 512) F ltac:(lia)) as BL. rewrite setA_ix, bok by lia. eexists. split; [reflexivity|].
  destruct (set_list s p x PL) as [SV SL]. assert (PZ : Z.of_nat p <= zlen s) by (unfold zlen; lia). unfold advance, setpos, setlen, rep. cbn [pos len cnt chain]. rewrite P, L.
  assert (G : forall q, 0 <= q < zlen (overwrite s p [x]) -> at_byte (set_nth (Z.to_nat (Z.of_nat p / 512)) (set_nth (Z.to_nat (Z.of_nat p mod 512)) x (nth (Z.to_nat (Z.of_nat p / 512)) (chain t) [])) (chain t)) q = ix (overwrite s p [x]) q).
  { intros q Q. rewrite SV by exact Q. unfold at_byte. assert (NS : forall n m (y : list Z) l, (n < length l)%nat -> nth m (set_nth n y l) [] = if (m =? n)%nat then y else nth m l []).
    { clear. intros n m y l N. destruct (m =? n)%nat eqn:E.
      - apply Nat.eqb_eq in E. subst. apply nth_error_nth. apply nth_set_nth_eq. exact N.
      - apply Nat.eqb_neq in E. assert (Q : nth_error (set_nth n y l) m = nth_error l m) by (apply nth_set_nth_neq; congruence). destruct (nth_error l m) eqn:X; [rewrite (nth_error_nth _ _ _ X); apply nth_error_nth; exact Q|].
        rewrite !nth_overflow; [reflexivity|apply nth_error_None; exact X|apply nth_error_None; exact Q]. }
    rewrite NS by (unfold zlen in *; lia). destruct (q =? Z.of_nat p) eqn:E.
    - apply Z.eqb_eq in E. subst q. rewrite Nat.eqb_refl, ix_set, Z.eqb_refl by lia. reflexivity.
    - rewrite <- B by lia. destruct (Z.to_nat (q / 512) =? Z.to_nat (Z.of_nat p / 512))%nat eqn:E2; [|reflexivity]. rewrite ix_set by lia. replace (q mod 512 =? Z.of_nat p mod 512) with false by lia. unfold at_byte. f_equal. f_equal. lia. }
  assert (FF : Forall (fun b : list Z => zlen b = 512) (set_nth (Z.to_nat (Z.of_nat p / 512)) (set_nth (Z.to_nat (Z.of_nat p mod 512)) x (nth (Z.to_nat (Z.of_nat p / 512)) (chain t) [])) (chain t))).
  { rewrite set_nth_split by (unfold zlen in *; lia). rewrite <- (firstn_skipn (Z.to_nat (Z.of_nat p / 512)) (chain t)) in F. apply Forall_app in F as [F1 F2]. apply Forall_app. split; [exact F1|]. constructor; [rewrite zlen_set; exact BL|].
    rewrite <- (Nat.add_1_l (Z.to_nat (Z.of_nat p / 512))). rewrite Forall_forall in F2 |- *. intros y Y. apply F2. revert Y. generalize (Z.to_nat (Z.of_nat p / 512)). generalize (chain t). clear. intros l n. revert l. induction n as [|n IH]; intros [|z l] Y; cbn in *; auto. }
  assert (PL2 : (S p <= length (overwrite s p [x]))%nat) by (unfold zlen in SL; lia).
  destruct (zlen s <? Z.of_nat p + 1) eqn:E; cbn [pos len cnt chain]; rewrite zlen_set; (split; [|reflexivity]); (split; [lia|]; split; [lia|]; split; [exact PL2|]; split; [exact C|]; split; [lia|]; split; [exact FF|exact G]).
Qed.
Lemma over_cons : forall (s : list Z) p x bs, (p <= length s)%nat -> overwrite (overwrite s p [x]) (S p) bs = overwrite s p (x :: bs).
Proof.
  intros s p x bs P. unfold overwrite. cbn [length]. assert (L : length (firstn p s) = p) by (rewrite firstn_length; lia).
  replace (firstn (S p) (firstn p s ++ [x] ++ skipn (p + 1) s)) with (firstn p s ++ [x]).
  - rewrite <- app_assoc. cbn [app]. f_equal. f_equal. f_equal. rewrite skipn_app, L, skipn_all2 by lia. cbn [app]. replace (S p + length bs - p)%nat with (S (length bs)) by lia. cbn [skipn].
    assert (K : forall (l : list Z) m n, skipn m (skipn n l) = skipn (n + m) l) by (clear; intros l m n; revert l; induction n as [|n IH]; intros l; [reflexivity|]; destruct l; [rewrite !skipn_nil; reflexivity|]; apply IH).
    rewrite K. f_equal. lia.
  - rewrite firstn_app, L, (firstn_all2 (n := S p) (firstn p s)) by lia. replace (S p - p)%nat with 1%nat by lia. reflexivity.
Qed.
Lemma over_nil : forall (s : list Z) p, overwrite s p [] = s. Proof. intros s p. unfold overwrite. cbn [length app]. rewrite Nat.add_0_r. apply firstn_skipn. Qed.
Lemma part_cons : forall (s : list Z) p n, (p < length s)%nat -> part s p (S n) = ix s (Z.of_nat p) :: part s (S p) n.
Proof.
  intros s p n P. unfold part, ix. rewrite Nat2Z.id. revert s P. induction p as [|p IH]; intros [|x s] P; cbn [length] in *; try lia; [reflexivity|]. cbn [skipn nth]. apply IH. lia.
Qed.
Lemma succ_block : forall p, (Z.of_nat p mod 512 + 1) mod 512 =? 0 = true -> Z.of_nat (S p) mod 512 = 0. Proof. intros. lia. Qed.
Lemma write_ok : forall n t s p i buf, rep t s p -> Z.of_nat p / 512 < zlen (chain t) -> (i + n <= length buf)%nat ->
  exists t', write_loop n t (Z.of_nat p / 512) (Z.of_nat p mod 512) (Z.of_nat i) buf = Ok t' /\ rep t' (overwrite s p (part buf i n)) (p + n).
Proof.
  induction n as [|n IH]; intros t s p i buf R A I; cbn [write_loop].
  - exists t. split; [reflexivity|]. unfold part. cbn [firstn]. rewrite over_nil, Nat.add_0_r. exact R.
  - rewrite getA_ix, bok by (unfold zlen; lia). destruct (put_ok t s p (ix buf (Z.of_nat i)) R A) as (t1 & -> & R1 & C1). rewrite bok.
    change (if len (setpos t1 (pos t1 + 1)) <? pos (setpos t1 (pos t1 + 1)) then setlen (setpos t1 (pos t1 + 1)) (pos (setpos t1 (pos t1 + 1))) else setpos t1 (pos t1 + 1)) with (advance t1).
    pose proof (proj1 (proj2 (proj2 R))) as PL. rewrite part_cons by lia. replace (p + S n)%nat with (S p + n)%nat by lia. rewrite <- over_cons by exact PL. replace (Z.of_nat i + 1) with (Z.of_nat (S i)) by lia. change bufsize with 512.
    destruct ((Z.of_nat p mod 512 + 1) mod 512 =? 0) eqn:E.
    + destruct (access_ok _ _ _ R1) as (t2 & -> & R2 & A2). rewrite bok. specialize (IH t2 _ (S p) (S i) buf R2 A2 ltac:(lia)). replace (Z.of_nat (S p) mod 512) with 0 in IH by lia. exact IH.
    + replace (Z.of_nat p / 512) with (Z.of_nat (S p) / 512) by lia. replace (Z.of_nat p mod 512 + 1) with (Z.of_nat (S p) mod 512) by lia. apply IH; [exact R1| |lia].
      rewrite C1. replace (Z.of_nat (S p) / 512) with (Z.of_nat p / 512) by lia. exact A.
Qed.
Lemma rep_pos : forall t s p, rep t s p -> (p < length s)%nat -> rep (setpos t (pos t + 1)) s (S p).
Proof. intros t s p (P & L & PL & C & LC & F & B) Q. unfold rep, setpos. cbn [pos len cnt chain]. split; [lia|]. split; [exact L|]. split; [lia|]. auto. Qed.
Lemma get_ok : forall t s p, rep t s p -> (p < length s)%nat -> Z.of_nat p / 512 < zlen (chain t) -> getA (buffer t (Z.of_nat p / 512)) (Z.of_nat p mod 512) = Ok (ix s (Z.of_nat p)).
Proof.
  intros t s p (P & L & PL & C & LC & F & B) Q A. unfold buffer. pose proof (buf_len (chain t) (Z.of_nat p / 512) F ltac:(lia)) as BL. rewrite getA_ix by lia. f_equal. apply (B (Z.of_nat p)). unfold zlen. lia.
Qed.
Lemma over_set : forall (buf : list Z) i x, (i < length buf)%nat -> set_nth i x buf = overwrite buf i [x].
Proof. intros buf i x I. rewrite set_nth_split by exact I. unfold overwrite. cbn [length app]. replace (i + 1)%nat with (S i) by lia. reflexivity. Qed.
Lemma over_len : forall (buf : list Z) i bs, (i + length bs <= length buf)%nat -> length (overwrite buf i bs) = length buf.
Proof. intros buf i bs I. unfold overwrite. rewrite !app_length, firstn_length, skipn_length. lia. Qed.
Lemma read_ok : forall n t s p i buf, rep t s p -> Z.of_nat p / 512 < zlen (chain t) -> (p + n <= length s)%nat -> (i + n <= length buf)%nat ->
  exists t', read_loop n t (Z.of_nat p / 512) (Z.of_nat p mod 512) (Z.of_nat i) buf = Ok (t', overwrite buf i (part s p n)) /\ rep t' s (p + n).
Proof.
  induction n as [|n IH]; intros t s p i buf R A N I; cbn [read_loop].
  - exists t. unfold part. cbn [firstn]. rewrite over_nil, Nat.add_0_r. auto.
  - rewrite (get_ok t s p R ltac:(lia) A), bok. rewrite setA_ix, bok by (unfold zlen; lia). rewrite Nat2Z.id, over_set by lia. pose proof (rep_pos t s p R ltac:(lia)) as R1. rewrite part_cons by lia. replace (p + S n)%nat with (S p + n)%nat by lia.
    rewrite <- (over_cons buf i (ix s (Z.of_nat p)) (part s (S p) n)) by lia. replace (Z.of_nat i + 1) with (Z.of_nat (S i)) by lia. change bufsize with 512. assert (LB : length (overwrite buf i [ix s (Z.of_nat p)]) = length buf) by (apply over_len; cbn; lia).
    destruct ((Z.of_nat p mod 512 + 1) mod 512 =? 0) eqn:E.
    + destruct (access_ok _ _ _ R1) as (t2 & -> & R2 & A2). rewrite bok. specialize (IH t2 s (S p) (S i) (overwrite buf i [ix s (Z.of_nat p)]) R2 A2 ltac:(lia) ltac:(lia)). replace (Z.of_nat (S p) mod 512) with 0 in IH by lia. exact IH.
    + replace (Z.of_nat p / 512) with (Z.of_nat (S p) / 512) in * by lia. replace (Z.of_nat p mod 512 + 1) with (Z.of_nat (S p) mod 512) by lia. apply IH; [exact R1|exact A|lia|lia].
Qed.
Lemma part_len : forall (s : list Z) p n, (p + n <= length s)%nat -> length (part s p n) = n. Proof. intros s p n H. unfold part. rewrite firstn_length, skipn_length. lia. Qed.
Lemma call_ok : forall o t s p, rep t s p -> sane o -> (match o with OTrunc n => Z.of_nat (length s) / 512 <= n / 512 | _ => True end) ->
  exists t', call o t = Ok (fst (fst (effect o s p)), t') /\ rep t' (snd (fst (effect o s p))) (snd (effect o s p)).
Proof.
  intros o t s p R S N. pose proof R as (P & L & PL & C & LC & F & B). destruct o as [x|buf off n| |buf off n|c w| | |n]; cbn [call effect fst snd sane] in *.
  - unfold Write. destruct (access_ok t s p R) as (t1 & -> & R1 & A1). rewrite !bok. rewrite (proj1 R1). change bufsize with 512. destruct (put_ok t1 s p x R1 A1) as (t2 & -> & R2 & _). rewrite !bok. eexists. split; [reflexivity|exact R2].
  - unfold BufWrite. destruct (0 <? Z.of_nat n) eqn:E.
    + destruct (access_ok t s p R) as (t1 & -> & R1 & A1). rewrite !bok. rewrite (proj1 R1). change bufsize with 512. rewrite Nat2Z.id. destruct (write_ok n t1 s p off buf R1 A1 S) as (t2 & -> & R2). rewrite !bok. exists t2. split; [reflexivity|exact R2].
    + rewrite bok. exists t. split; [reflexivity|]. assert (n = O) by lia. subst n. unfold part. cbn [firstn]. rewrite over_nil, Nat.add_0_r. exact R.
  - unfold Read. rewrite P, L. destruct (Z.of_nat p <? zlen s) eqn:E.
    + assert (Q : (p < length s)%nat) by (unfold zlen in E; lia). destruct (access_ok t s p R) as (t1 & -> & R1 & A1). rewrite !bok. rewrite (proj1 R1). change bufsize with 512. rewrite (get_ok t1 s p R1 Q A1), !bok.
      assert (X : nth_error s p = Some (ix s (Z.of_nat p))) by (unfold ix; rewrite Nat2Z.id; apply nth_error_nth'; exact Q). rewrite X. cbn [fst snd]. eexists. split; [reflexivity|]. rewrite <- (proj1 R1). apply rep_pos; assumption.
    + rewrite bok. assert (X : nth_error s p = None) by (apply nth_error_None; unfold zlen in E; lia). rewrite X. exists t. split; [reflexivity|exact R].
  - unfold BufRead. rewrite P, L. assert (K : (if zlen s - Z.of_nat p <? Z.of_nat n then zlen s - Z.of_nat p else Z.of_nat n) = Z.of_nat (Nat.min n (length s - p))) by (unfold zlen; destruct (_ <? _) eqn:E; lia).
    rewrite K. destruct (0 <? Z.of_nat (Nat.min n (length s - p))) eqn:E.
    + destruct (access_ok t s p R) as (t1 & -> & R1 & A1). rewrite !bok. rewrite (proj1 R1). change bufsize with 512. rewrite Nat2Z.id. destruct (read_ok (Nat.min n (length s - p)) t1 s p off buf R1 A1 ltac:(lia) ltac:(lia)) as (t2 & -> & R2). rewrite !bok. exists t2. split; [reflexivity|exact R2].
    + rewrite bok. exists t. cbn [fst snd]. replace (Nat.min n (length s - p)) with O by lia. unfold part. cbn [firstn]. rewrite over_nil, Nat.add_0_r. split; [reflexivity|exact R].
  - unfold Seek. assert (Q : match w with fromStart => c | fromPos => c + pos t | fromEnd => c + len t end = c + match w with fromStart => 0 | fromPos => Z.of_nat p | fromEnd => Z.of_nat (length s) end) by (destruct w; rewrite ?P, ?L; unfold zlen; lia).
    rewrite Q, L. change (zlen s) with (Z.of_nat (length s)). set (q := c + _). destruct ((0 <=? q) && (q <=? Z.of_nat (length s))) eqn:E; cbn [fst snd]; [|exists t; split; [reflexivity|exact R]].
    eexists. split; [reflexivity|]. unfold rep, setpos. cbn [pos len cnt chain]. split; [lia|]. split; [exact L|]. split; [lia|]. auto.
  - exists t. unfold Tell. rewrite P. split; [reflexivity|exact R].
  - exists (Close t). split; [reflexivity|]. unfold Close. assert (Z0 : forall q, 0 <= q < zlen (@nil Z) -> False) by (intros q Q; unfold zlen in Q; cbn in Q; lia). pose proof (zlen_nonneg _ (chain t)). destruct (0 <? cnt t) eqn:E; unfold rep; cbn [pos len cnt chain].
    + split; [reflexivity|]. split; [reflexivity|]. split; [cbn; lia|]. split; [reflexivity|]. split; [lia|]. split; [constructor|intros q Q; destruct (Z0 q Q)].
    + split; [reflexivity|]. split; [reflexivity|]. split; [cbn; lia|]. split; [exact C|]. split; [lia|]. split; [exact F|intros q Q; destruct (Z0 q Q)].
  - unfold Trunc. rewrite P, L. change (zlen s) with (Z.of_nat (length s)). destruct ((Z.of_nat p <=? n) && (n <=? Z.of_nat (length s))) eqn:E; cbn [fst snd].
    + replace ((0 <=? n) && (n <=? Z.of_nat (length s)) && (Z.of_nat p <=? n)) with true by lia. change bufsize with 512. replace (n / 512 <? Z.of_nat (length s) / 512) with false by lia. rewrite bok. eexists. split; [reflexivity|].
      unfold rep, setlen. cbn [pos len cnt chain snd]. assert (LN : length (firstn (Z.to_nat n) s) = Z.to_nat n) by (rewrite firstn_length; lia). unfold zlen at 1 in L. assert (ZN : zlen (firstn (Z.to_nat n) s) = n) by (unfold zlen; lia).
      split; [exact P|]. split; [lia|]. split; [lia|]. split; [exact C|]. split; [lia|]. split; [exact F|]. intros q Q. rewrite ix_firstn by lia. apply B. unfold zlen. lia.
    + replace ((0 <=? n) && (n <=? Z.of_nat (length s)) && (Z.of_nat p <=? n)) with false by lia. rewrite bok. exists t. split; [reflexivity|exact R].
Qed.
(** Whatever is done with a new text, it behaves like a sequence of bytes with a position, as long as no truncation gives up a block. *)
Theorem C100_text_partial : forall l, Forall sane l -> near l [] 0 -> run l Open = Ok (effects l [] 0).
Proof.
  assert (G : forall l t s p, rep t s p -> Forall sane l -> near l s p -> run l t = Ok (effects l s p)).
  { induction l as [|o l IH]; intros t s p R S N; [reflexivity|]. cbn [run effects near] in *. inversion S as [|? ? S1 S2]; subst. destruct N as [N1 N2]. destruct (call_ok o t s p R S1 N1) as (t' & -> & R'). rewrite bok. cbn [fst snd].
    destruct (effect o s p) as [[r s'] p'] eqn:E. cbn [fst snd] in *. rewrite (IH t' s' p' R' S2 N2). reflexivity. }
  intros l S N. apply G; [|exact S|exact N]. unfold rep, Open. cbn [pos len cnt chain]. split; [reflexivity|]. split; [reflexivity|]. split; [cbn; lia|]. split; [reflexivity|]. split; [lia|]. split; [constructor|]. intros q Q. unfold zlen in Q. cbn in Q. lia.
Qed.
(** After 600 bytes are truncated to 100 the text gives zeros instead of its bytes, although they were never touched. *)
Definition sevens : list Z := repeat 7 600.
Definition history : list op := [OBufWrite sevens 0 600; OSeek 0 fromStart; OTrunc 100; ORead].
Theorem C100_trunc_refuted : Forall sane history /\ effects history [] 0 = [Count 600; Done; Done; Byte 7] /\ run history Open = Ok [Count 600; Done; Done; Byte 0].
Proof. split; [repeat constructor; cbn; lia|]. split; vm_compute; reflexivity. Qed.
(** Even a text that was closed afterwards and written again is wrong: what is written is not what is read. *)
Definition history2 : list op := [OBufWrite sevens 0 600; OSeek 0 fromStart; OTrunc 0; OClose; OWrite 1; OSeek 0 fromStart; ORead].
Theorem C100_close_refuted : effects history2 [] 0 = [Count 600; Done; Done; Done; Done; Done; Byte 1] /\ run history2 Open = Ok [Count 600; Done; Done; Done; Done; Done; Byte 7].
Proof. split; vm_compute; reflexivity. Qed.
Example C100_met : let l := [OBufWrite sevens 0 600; OWrite 8; OSeek (-3) fromEnd; OTrunc 599; OWrite 9; OSeek 0 fromPos; OTell; OSeek 500 fromStart; OBufRead (repeat 0 5) 1 4; OSeek 598 fromStart; ORead; ORead] in
  Forall sane l /\ near l [] 0 /\ run l Open = Ok (effects l [] 0).
Proof. split; [repeat constructor; cbn; lia|]. split; [|vm_compute; reflexivity]. vm_compute. repeat split; discriminate. Qed.
Print Assumptions C100_text_partial. Print Assumptions C100_trunc_refuted. Print Assumptions C100_close_refuted.
