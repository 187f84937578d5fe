(** C96: constant strings are unique per domain, keep their contents, compare and read correctly. *)
From Verif Require Import Base KstrModel KstrSpec KstrProofs.
Local Open Scope nat_scope.

(** Creating strings never fails, and two creations give the same object exactly if the bytes are the same. *)
Theorem C96_intern : forall l, exists d ids, creates CreateDomain l = Ok (d, ids) /\ length ids = length l /\
  (forall j k a b x y, nth_error l j = Some a -> nth_error l k = Some b -> nth_error ids j = Some x -> nth_error ids k = Some y -> (x = y <-> a = b)) /\
  (forall k c, nth_error l k = Some c -> exists s, made d s c).
Proof.
  intros l. destruct (creates_inv l _ _ Inv0) as (d & ids & ext & C & I & F). cbn [app] in *. exists d, ids. split; [exact C|]. pose proof (F2_len _ _ _ _ _ F) as L. split; [congruence|]. split.
  - intros j k a b x y A B X Y. pose proof (F2_nth2 _ _ _ _ _ _ _ _ F A X) as N1. pose proof (F2_nth2 _ _ _ _ _ _ _ _ F B Y) as N2. cbn beta in *. split; [intros ->; congruence|]. intros ->.
    destruct I as (_ & _ & _ & ND & _). rewrite NoDup_nth_error in ND. apply ND; [apply nth_error_Some; congruence|congruence].
  - intros k c K. destruct (nth_error ids k) as [i|] eqn:E; [|apply nth_error_None in E; assert (k < length l) by (apply nth_error_Some; congruence); lia].
    pose proof (F2_nth2 _ _ _ _ _ _ _ _ F K E) as N. destruct I as (_ & _ & FS & _). destruct (F2_nth _ _ _ _ _ _ _ FS N) as (s & S1 & _). exists s, l, ids, k, i. auto.
Qed.
(** The contents are those given, however many strings were created since: for a stream with any room, and for an array of any length. *)
Lemma write_ok : forall fuel B p c room count, length c < fuel -> wf B -> at_ B p c -> Write fuel B p (length c) room count = Ok (firstn room c, count + Nat.min room (length c)).
Proof.
  induction fuel as [|fuel IH]; intros B p c room count F W A; [lia|]. cbn [Write]. destruct (length c =? 0) eqn:E0.
  - apply Nat.eqb_eq in E0. destruct c; [|discriminate]. rewrite firstn_nil. cbn [length]. rewrite Nat.min_0_r, Nat.add_0_r. reflexivity.
  - apply Nat.eqb_neq in E0. pose proof A as (O & _). set (n := Nat.min (length c) (bufsize - snd p)). assert (LF : length (firstn n c) = n) by (rewrite firstn_length; lia).
    rewrite <- (firstn_skipn n c) in A. destruct (get B p (firstn n c) (skipn n c) W A) as [G1 G2]. { intros Q. rewrite Q in LF. cbn in LF. lia. } { lia. }
    rewrite LF in G1, G2. rewrite G1. cbn [bind]. destruct (room <? n) eqn:R.
    + apply Nat.ltb_lt in R. rewrite firstn_firstn. do 3 f_equal; lia.
    + apply Nat.ltb_ge in R. specialize (IH B (Step p n) (skipn n c) (room - n) (count + n)). rewrite skipn_length in IH. rewrite IH; [|lia|exact W|exact G2]. cbn [bind fst snd].
      f_equal. f_equal; [|lia]. rewrite <- (firstn_skipn n c) at 3. rewrite firstn_app, LF. f_equal. symmetry. apply firstn_all2. lia.
Qed.
Theorem C96_write : forall d s c room, made d s c -> WriteTo (bufs d) s room = Ok (firstn room c, Nat.min room (length c)).
Proof. intros d s c room M. destruct (made_holds _ _ _ M) as [W [L A]]. unfold WriteTo. rewrite L. rewrite (write_ok (S (length c)) (bufs d) _ c room 0); auto. Qed.
Lemma extract_ok : forall c B p index cap, wf B -> at_ B p c -> index < cap -> extract_loop B p (length c) index cap = Ok (firstn (cap - 1 - index) c ++ [0%Z]).
Proof.
  induction c as [|ch c IH]; intros B p index cap W A H; cbn [length extract_loop].
  - replace (index <? cap) with true by lia. rewrite firstn_nil. reflexivity.
  - destruct (index + 1 <? cap) eqn:E.
    + destruct (get1 _ _ _ _ W A) as [-> G]. cbn [bind]. rewrite IH; [|exact W|exact G|lia]. cbn [bind]. replace (cap - 1 - index) with (S (cap - 1 - S index)) by lia. reflexivity.
    + replace (index <? cap) with true by lia. replace (cap - 1 - index) with 0 by lia. reflexivity.
Qed.
Theorem C96_extract : forall d s c cap, made d s c -> 0 < cap -> Extract (bufs d) s cap = Ok (firstn (cap - 1) c ++ [0%Z]).
Proof. intros d s c cap M H. destruct (made_holds _ _ _ M) as [W [L A]]. unfold Extract. rewrite L, extract_ok by assumption. rewrite Nat.sub_0_r. reflexivity. Qed.
(** Compare is the lexicographic order, also for strings of different domains. *)
Lemma compare_ok : forall c1 c2 B1 p1 B2 p2, wf B1 -> wf B2 -> at_ B1 p1 c1 -> at_ B2 p2 c2 -> exists z, compare_loop B1 p1 (length c1) B2 p2 (length c2) = Ok z /\ sign z = lex c1 c2.
Proof.
  induction c1 as [|x c1 IH]; intros [|y c2] B1 p1 B2 p2 W1 W2 A1 A2; cbn [length compare_loop lex]; try (eexists; split; reflexivity).
  destruct (get1 _ _ _ _ W1 A1) as [-> G1]. destruct (get1 _ _ _ _ W2 A2) as [-> G2]. cbn [bind]. unfold sign. destruct (Z.compare_spec x y) as [E|E|E].
  - subst. rewrite Z.eqb_refl. cbn [negb]. apply IH; assumption.
  - replace (x =? y)%Z with false by lia. eexists. split; [reflexivity|]. apply Z.compare_lt_iff. lia.
  - replace (x =? y)%Z with false by lia. eexists. split; [reflexivity|]. apply Z.compare_gt_iff. lia.
Qed.
Lemma lex_refl : forall c, lex c c = Eq. Proof. induction c; cbn; [reflexivity|]. rewrite Z.compare_refl. exact IHc. Qed.
Theorem C96_compare : forall d1 s1 c1 d2 s2 c2 same, made d1 s1 c1 -> made d2 s2 c2 -> (same = true -> c1 = c2) -> exists z, Compare same (bufs d1) s1 (bufs d2) s2 = Ok z /\ sign z = lex c1 c2.
Proof.
  intros d1 s1 c1 d2 s2 c2 same M1 M2 S. destruct (made_holds _ _ _ M1) as [W1 [L1 A1]]. destruct (made_holds _ _ _ M2) as [W2 [L2 A2]]. unfold Compare. destruct same.
  - rewrite (S eq_refl), lex_refl. eexists. split; reflexivity.
  - rewrite L1, L2. apply compare_ok; assumption.
Qed.
(** A reader behaves like a file with the contents, whatever is read and sought. *)
Lemma skipn_cons : forall p (c : list Z), p < length c -> exists ch, nth_error c p = Some ch /\ skipn p c = ch :: skipn (S p) c.
Proof. induction p as [|p IH]; intros [|x c] H; cbn in *; try lia; [eauto|]. apply IH. lia. Qed.
Lemma skipn_plus : forall a b (c : list Z), skipn b (skipn a c) = skipn (a + b) c.
Proof. induction a as [|a IH]; intros b c; [reflexivity|]. destruct c; cbn [skipn plus]; [apply skipn_nil|apply IH]. Qed.
Lemma seek_ok : forall B c fuel p cur real, wf B -> at_ B p (skipn cur c) -> cur <= real <= length c -> S (real - cur) <= fuel -> exists p', seek_loop fuel p cur real = Ok p' /\ at_ B p' (skipn real c).
Proof.
  intros B c. induction fuel as [|fuel IH]; intros p cur real W A H F; [lia|]. cbn [seek_loop]. destruct (cur <? real) eqn:E.
  2: { apply Nat.ltb_ge in E. assert (cur = real) by lia. subst. eauto. }
  apply Nat.ltb_lt in E. pose proof A as (O & pre & post & EC & L).
  assert (G : forall n p', snd p' < bufsize -> pz p' = pz p + n -> cur + n <= length c -> at_ B p' (skipn (cur + n) c)).
  { intros n p' O' P' N. split; [exact O'|]. exists (pre ++ firstn n (skipn cur c)), post. rewrite app_length, firstn_length, skipn_length. split; [|lia].
    rewrite EC, <- app_assoc. f_equal. rewrite <- (firstn_skipn n (skipn cur c)) at 1. rewrite <- app_assoc, skipn_plus. reflexivity. }
  destruct (real - cur <? bufsize - snd p) eqn:E2.
  - apply Nat.ltb_lt in E2. apply IH; [exact W| |lia|lia]. replace real with (cur + (real - cur)) at 2 by lia. apply G; [cbn [snd]; lia|unfold pz; cbn [fst snd]; lia|lia].
  - apply Nat.ltb_ge in E2. apply IH; [exact W| |lia|lia]. apply G; [cbn [snd]; pose proof buf_pos; lia|unfold pz; cbn [fst snd]; rewrite Nat.mul_succ_r; lia|lia].
Qed.
Definition rok (B : list (list Z)) (s : string) (c : list Z) (r : reader) : Prop := rstr r = s /\ rpos r <= length c /\ at_ B (rp r) (skipn (rpos r) c).
Lemma session_ok : forall B s c, wf B -> holds B s c -> forall l r, rok B s c r -> exists evs, session B r l = Ok evs /\ map request_of evs = l /\ file c (rpos r) evs.
Proof.
  intros B s c W [LS AS]. induction l as [|q l IH]; intros r (R1 & R2 & R3); [exists []; repeat split; constructor|]. destruct q as [|n|cnt w]; cbn [session].
  - unfold ReadByte. rewrite R1, LS. destruct (length c <=? rpos r) eqn:E.
    + apply Nat.leb_le in E. cbn [bind fst snd]. destruct (IH r) as (evs & -> & M & F); [split; [|split]; assumption|]. cbn [bind]. eexists. split; [reflexivity|]. split; [cbn; rewrite M; reflexivity|].
      econstructor; [|exact F]. split; [symmetry; apply nth_error_None; exact E|lia].
    + apply Nat.leb_gt in E. destruct (skipn_cons _ _ E) as (ch & N & SK). rewrite SK in R3. destruct (get1 _ _ _ _ W R3) as [-> G]. cbn [bind fst snd].
      match goal with |- context [session B ?r' l] => destruct (IH r') as (evs & -> & M & F); [split; [|split]; cbn [rstr rpos rp]; [reflexivity || exact R1|lia|exact G]|] end.
      cbn [bind]. eexists. split; [reflexivity|]. split; [cbn; rewrite M; reflexivity|]. econstructor; [|exact F]. cbn [rpos]. split; [symmetry; exact N|lia].
  - unfold ReadBuf. rewrite R1, LS. destruct (length c <=? rpos r) eqn:E.
    + apply Nat.leb_le in E. cbn [bind fst snd]. destruct (IH r) as (evs & -> & M & F); [split; [|split]; assumption|]. cbn [bind]. eexists. split; [reflexivity|]. split; [cbn; rewrite M; reflexivity|].
      econstructor; [|exact F]. repeat split; cbn [length]; [lia|auto|lia].
    + apply Nat.leb_gt in E. pose proof R3 as (O & _). set (k := Nat.min (Nat.min (length c - rpos r) n) (bufsize - snd (rp r))).
      assert (LF : length (firstn k (skipn (rpos r) c)) = k) by (rewrite firstn_length, skipn_length; lia).
      assert (G : get_part B (rp r) k = Ok (firstn k (skipn (rpos r) c)) /\ at_ B (Step (rp r) k) (skipn (rpos r + k) c)).
      { destruct (Nat.eq_dec k 0) as [K|K].
        - rewrite K, firstn_O, Nat.add_0_r. split.
          + unfold get_part. destruct (skipn_cons _ _ E) as (ch & N & SK). rewrite SK in R3. destruct (get1 _ _ _ _ W R3) as [G _]. unfold byte in G. destruct (nth_error B (fst (rp r))); [reflexivity|discriminate].
          + unfold Step. replace (bufsize <=? snd (rp r) + 0) with false by lia. rewrite Nat.add_0_r. rewrite <- surjective_pairing. exact R3.
        - rewrite <- (firstn_skipn k (skipn (rpos r) c)) in R3. destruct (get B (rp r) _ _ W R3) as [G1 G2]. { intros Q. rewrite Q in LF. cbn in LF. lia. } { lia. }
          rewrite LF in G1, G2. rewrite skipn_plus in G2. auto. }
      destruct G as [-> G]. cbn [bind fst snd].
      match goal with |- context [session B ?r' l] => destruct (IH r') as (evs & -> & M & F); [split; [|split]; cbn [rstr rpos rp]; [reflexivity || exact R1|lia|exact G]|] end.
      cbn [bind]. eexists. split; [reflexivity|]. split; [cbn; rewrite M; reflexivity|]. econstructor; [|exact F]. cbn [rpos]. split; [rewrite LF; reflexivity|]. split; [lia|]. split; [|lia].
      intros Q. rewrite Q in LF. cbn in LF. lia.
  - unfold Seek. cbv zeta. rewrite R1, LS. set (t := if (w =? 0)%Z then cnt else if (w =? 1)%Z then (Z.of_nat (rpos r) + cnt)%Z else (Z.of_nat (length c) + cnt)%Z).
    destruct ((t <? 0) || (Z.of_nat (length c) <? t))%Z eqn:E.
    + cbn [bind fst snd]. destruct (IH r) as (evs & -> & M & F); [split; [|split]; assumption|]. cbn [bind]. eexists. split; [reflexivity|]. split; [cbn; rewrite M; reflexivity|].
      econstructor; [|exact F]. cbn [answers]. fold t. replace ((0 <=? t) && (t <=? Z.of_nat (length c)))%Z with false by lia. auto.
    + assert (T : ((0 <=? t) && (t <=? Z.of_nat (length c)))%Z = true) by lia. destruct (Z.to_nat t =? rpos r) eqn:E2; cbn [negb].
      * apply Nat.eqb_eq in E2. cbn [bind fst snd]. destruct (IH r) as (evs & -> & M & F); [split; [|split]; assumption|]. cbn [bind]. eexists. split; [reflexivity|]. split; [cbn; rewrite M; reflexivity|].
        econstructor; [|exact F]. cbn [answers]. fold t. rewrite T. split; [reflexivity|lia].
      * apply Nat.eqb_neq in E2.
        assert (P : exists p', seek_loop (S (S (Z.to_nat t))) (if Z.to_nat t <? rpos r then (sbuf s, soffset s) else rp r) (if Z.to_nat t <? rpos r then 0 else rpos r) (Z.to_nat t) = Ok p' /\ at_ B p' (skipn (Z.to_nat t) c)).
        { destruct (Z.to_nat t <? rpos r) eqn:E3; apply seek_ok; try assumption; lia. }
        unfold pos in P. destruct P as (p' & -> & A'). cbn [bind fst snd].
        match goal with |- context [session B ?r' l] => destruct (IH r') as (evs & -> & M & F); [split; [|split]; cbn [rstr rpos rp]; [reflexivity || exact R1|lia|exact A']|] end.
        cbn [bind]. eexists. split; [reflexivity|]. split; [cbn; rewrite M; reflexivity|]. econstructor; [|exact F]. cbn [answers rpos]. fold t. rewrite T. split; [reflexivity|lia].
Qed.
Theorem C96_read : forall d s c l, made d s c -> exists evs, session (bufs d) (Open s) l = Ok evs /\ map request_of evs = l /\ file c 0 evs.
Proof.
  intros d s c l M. destruct (made_holds _ _ _ M) as [W H]. apply (session_ok (bufs d) s c W H l (Open s)). destruct H as [L A]. split; [reflexivity|]. split; [cbn; lia|exact A].
Qed.
(** A string of 600 bytes crosses buffers; equal strings are one object. *)
Definition big : list Z := map (fun n => Z.of_nat (n mod 251)) (seq 0 600).
Definition abc : list Z := [97; 98; 99]%Z.
Definition abd : list Z := [97; 98; 100]%Z.
Example C96_met : exists d s, creates CreateDomain [abc; big; abd; abc; big; []] = Ok (d, [0; 1; 2; 0; 1; 3]) /\ nth_error (strs d) 1 = Some s /\ made d s big /\ length (bufs d) = 2 /\
  WriteTo (bufs d) s 1000 = Ok (big, 600) /\ Extract (bufs d) s 3 = Ok [0; 1; 0]%Z /\
  session (bufs d) (Open s) [WantSeek 508 0; WantBytes 9; WantByte; WantSeek 1 2] = Ok [Sought 508 0 true; GotBytes 9 [6]%Z; GotByte (Some 7%Z); Sought 1 2 false].
Proof.
  assert (E : exists d s, creates CreateDomain [abc; big; abd; abc; big; []] = Ok (d, [0; 1; 2; 0; 1; 3]) /\ nth_error (strs d) 1 = Some s).
  { do 2 eexists. split; [vm_compute; reflexivity|]. vm_compute. reflexivity. }
  destruct E as (d & s & E & S1). exists d, s. split; [exact E|]. split; [exact S1|].
  assert (M : made d s big) by (exists [abc; big; abd; abc; big; []], [0; 1; 2; 0; 1; 3], 1, 1; auto). split; [exact M|].
  assert (D : fst (match creates CreateDomain [abc; big; abd; abc; big; []] with Ok r => r | _ => (CreateDomain, []) end) = d) by (rewrite E; reflexivity).
  rewrite <- D in *. clear D. split; [vm_compute; reflexivity|]. split; [rewrite (C96_write _ _ _ _ M); vm_compute; reflexivity|]. split; [rewrite (C96_extract _ _ _ _ M) by lia; vm_compute; reflexivity|].
  vm_compute in S1. injection S1 as <-. vm_compute. reflexivity.
Qed.
Print Assumptions C96_intern. Print Assumptions C96_write. Print Assumptions C96_extract. Print Assumptions C96_compare. Print Assumptions C96_read. Print Assumptions C96_met.
