(** Proofs for constant strings: the chain of buffers is one sequence of bytes. *)
From Verif Require Import Base KstrModel KstrSpec.
Local Open Scope nat_scope.

Lemma buf_pos : 0 < bufsize. Proof. unfold bufsize. lia. Qed.
Opaque bufsize.
Definition pz (p : pos) : nat := bufsize * fst p + snd p.
Definition at_ (B : list (list Z)) (p : pos) (c : list Z) : Prop :=
  snd p < bufsize /\ exists pre post, concat B = pre ++ c ++ post /\ length pre = pz p.
Definition wf (B : list (list Z)) : Prop := Forall (fun x => length x = bufsize) B.
Definition holds (B : list (list Z)) (s : string) (c : list Z) : Prop := slen s = length c /\ at_ B (sbuf s, soffset s) c.

Lemma Step_pz : forall p n, snd p + n <= bufsize -> pz (Step p n) = pz p + n /\ snd (Step p n) < bufsize.
Proof.
  intros [b o] n H. pose proof buf_pos. unfold Step, pz. cbn [fst snd] in *. destruct (bufsize <=? o + n) eqn:E; cbn [fst snd]; [rewrite Nat.mul_succ_r|]; lia.
Qed.
Lemma concat_len : forall B, wf B -> length (concat B) = bufsize * length B.
Proof. induction 1 as [|x B H _ IH]; cbn [concat length]; [lia|]. rewrite app_length, IH, H, Nat.mul_succ_r. lia. Qed.
Lemma locate : forall B b, wf B -> bufsize * b < length (concat B) ->
  exists l1 X l2, B = l1 ++ X :: l2 /\ length l1 = b /\ length X = bufsize /\ nth_error B b = Some X /\ concat B = concat l1 ++ X ++ concat l2 /\ length (concat l1) = bufsize * b /\ wf l1 /\ wf l2.
Proof.
  intros B b W H. rewrite concat_len in H by exact W. pose proof buf_pos. assert (L : b < length B) by nia.
  destruct (nth_error B b) as [X|] eqn:E; [|apply nth_error_None in E; lia].
  destruct (nth_error_split _ _ E) as (l1 & l2 & -> & L1). exists l1, X, l2. unfold wf in W. apply Forall_app in W as [W1 W2]. inversion W2; subst.
  rewrite concat_app. cbn [concat]. rewrite (concat_len l1 W1). repeat split; auto.
Qed.
Lemma skipn_len : forall (a b : list Z) n, n = length a -> skipn n (a ++ b) = b.
Proof. intros a b n ->. rewrite skipn_app, skipn_all, Nat.sub_diag. reflexivity. Qed.
Lemma firstn_len : forall (a b : list Z) n, n = length a -> firstn n (a ++ b) = a.
Proof. intros a b n ->. rewrite firstn_app, firstn_all, Nat.sub_diag, firstn_O, app_nil_r. reflexivity. Qed.
Lemma split_at : forall B p (x r pre : list Z), wf B -> snd p < bufsize -> concat B = pre ++ x ++ r -> length pre = pz p -> x <> [] -> snd p + length x <= bufsize ->
  exists l1 X l2, B = l1 ++ X :: l2 /\ length l1 = fst p /\ length X = bufsize /\ nth_error B (fst p) = Some X /\ wf l1 /\ wf l2 /\
    pre = concat l1 ++ firstn (snd p) X /\ x = firstn (length x) (skipn (snd p) X) /\ r = skipn (snd p + length x) X ++ concat l2.
Proof.
  intros B [b o] x r pre W O E L NE H. unfold pz in L. cbn [fst snd] in *. assert (0 < length x) by (destruct x; [congruence|cbn; lia]).
  destruct (locate B b W) as (l1 & X & l2 & EB & L1 & LX & N & EC & LC & W1 & W2).
  { rewrite E, !app_length. lia. }
  exists l1, X, l2. do 6 (split; [assumption|]). rewrite E in EC.
  assert (P : pre = concat l1 ++ firstn o X).
  { rewrite <- (firstn_len pre (x ++ r) (length pre) eq_refl), EC, L, firstn_app, LC, firstn_all2 by lia. f_equal.
    replace (bufsize * b + o - bufsize * b) with o by lia. rewrite firstn_app. replace (o - length X) with 0 by lia. rewrite firstn_O, app_nil_r. reflexivity. }
  assert (R : x ++ r = skipn o X ++ concat l2).
  { rewrite <- (skipn_len pre (x ++ r) (length pre) eq_refl), EC, L, skipn_app, LC, skipn_all2 by lia.
    replace (bufsize * b + o - bufsize * b) with o by lia. rewrite skipn_app. replace (o - length X) with 0 by lia. reflexivity. }
  split; [exact P|]. split.
  - rewrite <- (firstn_len x r (length x) eq_refl) at 1. rewrite R, firstn_app. replace (length x - length (skipn o X)) with 0 by (rewrite skipn_length; lia). rewrite firstn_O, app_nil_r. reflexivity.
  - rewrite <- (skipn_len x r (length x) eq_refl) at 1. rewrite R, skipn_app. replace (length x - length (skipn o X)) with 0 by (rewrite skipn_length; lia). cbn [skipn]. f_equal.
    clear. revert X. induction o as [|o IH]; intros X; [reflexivity|]. destruct X; cbn [skipn plus]; [rewrite skipn_nil; reflexivity|apply IH].
Qed.
Lemma get : forall B p x c, wf B -> at_ B p (x ++ c) -> x <> [] -> snd p + length x <= bufsize -> get_part B p (length x) = Ok x /\ at_ B (Step p (length x)) c.
Proof.
  intros B p x c W (O & pre & post & E & L) NE H. rewrite <- app_assoc in E. destruct (split_at B p x (c ++ post) pre W O E L NE H) as (l1 & X & l2 & _ & _ & _ & N & _ & _ & _ & EX & _).
  split; [unfold get_part; rewrite N, <- EX; reflexivity|]. destruct (Step_pz p (length x) H) as [S1 S2]. split; [exact S2|]. exists (pre ++ x), post. rewrite <- app_assoc. split; [exact E|]. rewrite app_length. lia.
Qed.
Lemma get1 : forall B p ch c, wf B -> at_ B p (ch :: c) -> byte B p = Ok ch /\ at_ B (Step p 1) c.
Proof.
  intros B p ch c W A. pose proof A as (O & _). destruct (get B p [ch] c W A ltac:(discriminate) ltac:(cbn [length]; lia)) as [G1 G2]. split; [|exact G2].
  unfold get_part in G1. unfold byte. destruct (nth_error B (fst p)) as [X|]; [|discriminate]. injection G1 as G1. cbn [length] in G1. clear - G1.
  revert X G1. induction (snd p) as [|o IH]; intros X G1; [destruct X; cbn in *; congruence|]. destruct X; cbn [skipn nth_error] in *; [discriminate|]. apply IH. exact G1.
Qed.

Lemma put : forall B p x pre old post, wf B -> snd p < bufsize -> concat B = pre ++ old ++ post -> length pre = pz p -> length old = length x -> x <> [] -> snd p + length x <= bufsize ->
  exists B', put_part B p x = Ok B' /\ wf B' /\ length B' = length B /\ concat B' = pre ++ x ++ post.
Proof.
  intros B p x pre old post W O E L LO NE H.
  destruct (split_at B p old post pre W O E L) as (l1 & X & l2 & EB & L1 & LX & N & W1 & W2 & EP & EO & ER).
  { destruct x; [congruence|]. destruct old; [discriminate|congruence]. } { lia. }
  unfold put_part. rewrite N. eexists. split; [reflexivity|]. rewrite EB, <- L1.
  rewrite (firstn_app (length l1) l1), firstn_all, Nat.sub_diag, firstn_O, app_nil_r. rewrite (skipn_app (S (length l1)) l1), (skipn_all2 l1) by lia. replace (S (length l1) - length l1) with 1 by lia. cbn [skipn app].
  split; [|split].
  - unfold wf in *. apply Forall_app. split; [exact W1|]. constructor; [|exact W2]. rewrite !app_length, firstn_length, skipn_length. lia.
  - rewrite !app_length. reflexivity.
  - rewrite concat_app. cbn [concat]. rewrite EP, ER, LO, <- !app_assoc. reflexivity.
Qed.
Lemma copy : forall fuel s B p pre old post, length s < fuel -> wf B -> snd p < bufsize -> concat B = pre ++ old ++ post -> length pre = pz p -> length old = length s ->
  exists B', CopyString fuel B p s = Ok B' /\ wf B' /\ length B' = length B /\ concat B' = pre ++ s ++ post.
Proof.
  induction fuel as [|fuel IH]; intros s B p pre old post F W O E L LO; [lia|]. cbn [CopyString]. destruct (length s =? 0) eqn:Z0.
  - destruct s; [|discriminate]. destruct old; [|discriminate]. exists B. auto.
  - apply Nat.eqb_neq in Z0. pose proof buf_pos. set (n := Nat.min (bufsize - snd p) (length s)). assert (N : 0 < n) by lia.
    rewrite <- (firstn_skipn n old), <- app_assoc in E. assert (LF : length (firstn n s) = n) by (rewrite firstn_length; lia).
    destruct (put B p (firstn n s) pre (firstn n old) (skipn n old ++ post) W O E L) as (B1 & -> & W1 & LB & E1).
    { rewrite !firstn_length. lia. } { intros C. rewrite C in LF. cbn in LF. lia. } { lia. }
    cbn [bind]. destruct (Nat.eq_dec n (length s)) as [EN|NN].
    + rewrite EN, skipn_all. rewrite EN, firstn_all in E1. destruct fuel; [lia|]. exists B1. cbn [CopyString length Nat.eqb]. split; [reflexivity|]. split; [exact W1|]. split; [exact LB|].
      rewrite E1. rewrite <- LO, skipn_all. reflexivity.
    + destruct (IH (skipn n s) B1 (S (fst p), 0) (pre ++ firstn n s) (skipn n old) post) as (B2 & -> & W2 & LB2 & E2).
      * rewrite skipn_length. lia.
      * exact W1.
      * cbn; lia.
      * rewrite E1, <- app_assoc. reflexivity.
      * rewrite app_length, L, LF. unfold pz. cbn [fst snd]. rewrite Nat.mul_succ_r. lia.
      * rewrite !skipn_length. lia.
      * exists B2. split; [reflexivity|]. split; [exact W2|]. split; [lia|]. rewrite E2, <- app_assoc. rewrite (app_assoc (firstn n s)), firstn_skipn. reflexivity.
Qed.

Definition used (B : list (list Z)) (fr : nat) : nat := match B with [] => 0 | _ => bufsize * (length B - 1) + fr end.
Lemma used_ne : forall B fr, B <> [] -> used B fr + bufsize = bufsize * length B + fr.
Proof. intros [|x B] fr H; [congruence|]. unfold used. cbn [length]. rewrite Nat.mul_succ_r. replace (S (length B) - 1) with (length B) by lia. lia. Qed.
Lemma used_le : forall B fr, wf B -> fr <= bufsize -> used B fr <= length (concat B).
Proof. intros B fr W H. rewrite concat_len by exact W. destruct B; [cbn; lia|]. pose proof (used_ne (l :: B) fr ltac:(discriminate)). lia. Qed.
Lemma new_wf : forall B, wf B -> wf (NewBuffer B).
Proof. intros B W. apply Forall_app. split; [exact W|]. constructor; [apply repeat_length|constructor]. Qed.
Lemma new_concat : forall B, concat (NewBuffer B) = concat B ++ repeat 0%Z bufsize.
Proof. intros B. unfold NewBuffer. rewrite concat_app. cbn [concat]. rewrite app_nil_r. reflexivity. Qed.
Lemma new_len : forall B, length (NewBuffer B) = S (length B).
Proof. intros B. unfold NewBuffer. rewrite app_length. cbn. lia. Qed.
Lemma new_ne : forall B, NewBuffer B <> [].
Proof. intros B H. apply (f_equal (@length (list Z))) in H. rewrite new_len in H. discriminate. Qed.
Lemma aloop : forall fuel len B fr, len < fuel -> wf B -> B <> [] -> fr <= bufsize -> fr < bufsize \/ len = 0 ->
  exists B' fr', alloc_loop fuel B fr len = Ok (B', fr') /\ wf B' /\ B' <> [] /\ fr' <= bufsize /\ (exists z, concat B' = concat B ++ z) /\ used B' fr' = used B fr + len.
Proof.
  induction fuel as [|fuel IH]; intros len B fr F W NE H1 H2; [lia|]. cbn [alloc_loop]. destruct (len =? 0) eqn:E0.
  - apply Nat.eqb_eq in E0. subst. exists B, fr. repeat split; auto. exists []. rewrite app_nil_r. reflexivity.
  - apply Nat.eqb_neq in E0. pose proof buf_pos. destruct (len <=? bufsize - fr) eqn:E1.
    + apply Nat.leb_le in E1. destruct (IH 0 B (fr + len)) as (B' & fr' & -> & W' & N' & F' & X & U); [lia|exact W|exact NE|lia|lia|].
      exists B', fr'. repeat split; auto. rewrite U. pose proof (used_ne B fr NE). pose proof (used_ne B (fr + len) NE). lia.
    + apply Nat.leb_gt in E1. destruct (IH (len - (bufsize - fr)) (NewBuffer B) 0) as (B' & fr' & -> & W' & N' & F' & (z & X) & U); [lia|apply new_wf; exact W|apply new_ne|lia|lia|].
      exists B', fr'. repeat split; auto. { rewrite X, new_concat, <- app_assoc. eexists. reflexivity. }
      rewrite U. pose proof (used_ne B fr NE). pose proof (used_ne (NewBuffer B) 0 (new_ne B)) as Q. rewrite new_len, Nat.mul_succ_r in Q. lia.
Qed.
Lemma allocate : forall B fr len, wf B -> fr <= bufsize ->
  exists B' fr' p, Allocate B fr len = Ok (B', fr', p) /\ wf B' /\ fr' <= bufsize /\ (exists z, concat B' = concat B ++ z) /\ used B' fr' = used B fr + len /\ snd p < bufsize /\ pz p = used B fr.
Proof.
  intros B fr len W H. pose proof buf_pos. unfold Allocate. set (new := match B with [] => true | _ => (fr =? bufsize) end).
  assert (C : (new = true /\ (B = [] \/ fr = bufsize)) \/ (new = false /\ B <> [] /\ fr < bufsize)).
  { unfold new. destruct B as [|x B]; [left; auto|]. destruct (fr =? bufsize) eqn:E; [left; split; [reflexivity|right; lia]|right; split; [reflexivity|split; [discriminate|lia]]]. }
  destruct C as [[-> C]|(-> & NE & C)].
  - destruct (aloop (S (S len)) len (NewBuffer B) 0) as (B' & fr' & -> & W' & N' & F' & (z & X) & U); [lia|apply new_wf; exact W|apply new_ne|lia|lia|].
    assert (UN : used (NewBuffer B) 0 = used B fr).
    { pose proof (used_ne (NewBuffer B) 0 (new_ne B)) as Q. rewrite new_len, Nat.mul_succ_r in Q. destruct C as [-> | ->]; [cbn [length used] in *; lia|].
      destruct B as [|x B]; [cbn [length used] in *; lia|]. pose proof (used_ne (x :: B) bufsize ltac:(discriminate)). lia. }
    cbn [bind]. do 3 eexists. split; [reflexivity|]. repeat split; auto. { rewrite X, new_concat, <- app_assoc. eexists. reflexivity. } { lia. }
    rewrite <- UN. unfold pz. cbn [fst snd]. rewrite new_len. pose proof (used_ne (NewBuffer B) 0 (new_ne B)) as Q. rewrite new_len, Nat.mul_succ_r in Q. replace (S (length B) - 1) with (length B) by lia. lia.
  - destruct (aloop (S (S len)) len B fr) as (B' & fr' & -> & W' & N' & F' & X & U); [lia|exact W|exact NE|lia|lia|].
    cbn [bind]. do 3 eexists. split; [reflexivity|]. repeat split; auto. unfold pz, used. cbn [fst snd]. destruct B; [congruence|]. reflexivity.
Qed.

Lemma at_keep : forall B B' p c u, at_ B p c -> pz p + length c <= u -> firstn u (concat B') = firstn u (concat B) -> at_ B' p c.
Proof.
  intros B B' p c u (O & pre & post & E & L) H F. split; [exact O|]. exists pre, (skipn (length (pre ++ c)) (concat B')). split; [|exact L].
  rewrite app_assoc. rewrite <- (firstn_skipn (length (pre ++ c)) (concat B')) at 1. f_equal.
  transitivity (firstn (length (pre ++ c)) (firstn u (concat B'))); [rewrite firstn_firstn; f_equal; rewrite app_length; lia|].
  rewrite F, firstn_firstn, E, app_assoc. apply firstn_len. rewrite app_length. lia.
Qed.
Lemma holds_at : forall B s c, holds B s c -> at_ B (sbuf s, soffset s) c. Proof. intros B s c [_ H]. exact H. Qed.

Lemma eq_loop : forall B x p c, wf B -> at_ B p c -> length x = length c -> exists b, equal_loop B p x = Ok b /\ (b = true <-> x = c).
Proof.
  intros B x. induction x as [|ch x IH]; intros p c W A L; (destruct c as [|y c]; [|try discriminate]); try discriminate.
  - exists true. cbn. tauto.
  - destruct (get1 _ _ _ _ W A) as [G1 G2]. cbn [equal_loop]. rewrite G1. cbn [bind]. destruct (ch =? y)%Z eqn:E; cbn [negb].
    + apply Z.eqb_eq in E. subst. destruct (IH (Step p 1) c W G2 ltac:(cbn in L; lia)) as (b & -> & I). exists b. split; [reflexivity|]. rewrite I. split; [intros ->; reflexivity|intros Q; injection Q; auto].
    + apply Z.eqb_neq in E. exists false. split; [reflexivity|]. split; [discriminate|]. intros Q. injection Q. congruence.
Qed.
Lemma equal : forall B x s c, wf B -> holds B s c -> exists b, Equal B x s = Ok b /\ (b = true <-> x = c).
Proof.
  intros B x s c W [L A]. unfold Equal. rewrite L. destruct (length x =? length c) eqn:E; cbn [negb].
  - apply Nat.eqb_eq in E. apply eq_loop; assumption.
  - apply Nat.eqb_neq in E. exists false. split; [reflexivity|]. split; [discriminate|]. intros ->. congruence.
Qed.

Definition Inv (d : domain) (cs : list (list Z)) : Prop :=
  wf (bufs d) /\ free d <= bufsize /\ Forall2 (fun s c => holds (bufs d) s c /\ pz (sbuf s, soffset s) + length c <= used (bufs d) (free d)) (strs d) cs /\ NoDup cs /\
  forall h i, In i (bucket d h) <-> exists c, nth_error cs i = Some c /\ (HashVal c mod tabsize = h)%Z.
Lemma F2_len : forall A B (R : A -> B -> Prop) l m, Forall2 R l m -> length l = length m.
Proof. induction 1; cbn; congruence. Qed.
Lemma F2_impl : forall A B (R S : A -> B -> Prop) l m, (forall x y, R x y -> S x y) -> Forall2 R l m -> Forall2 S l m.
Proof. induction 2; constructor; auto. Qed.
Lemma F2_nth : forall A B (R : A -> B -> Prop) l m i y, Forall2 R l m -> nth_error m i = Some y -> exists x, nth_error l i = Some x /\ R x y.
Proof. intros A B R l m i y H. revert i. induction H; intros [|i] E; cbn in *; try discriminate; [injection E as <-; eauto|auto]. Qed.
Lemma searches : forall d cs c, Inv d cs -> forall chain, (forall i, In i chain -> exists y, nth_error cs i = Some y) ->
  exists r, search d c chain = Ok r /\ match r with Some i => nth_error cs i = Some c | None => forall i, In i chain -> nth_error cs i <> Some c end.
Proof.
  intros d cs c (W & _ & F & _). induction chain as [|i chain IH]; intros H; [exists None; split; [reflexivity|intros i []]|].
  destruct (H i (or_introl eq_refl)) as (y & Y). destruct (F2_nth _ _ _ _ _ _ _ F Y) as (s & S1 & S2 & _). cbn [search]. rewrite S1.
  destruct (equal _ c _ _ W S2) as (b & -> & I). cbn [bind]. destruct b.
  - exists (Some i). split; [reflexivity|]. rewrite Y. f_equal. symmetry. apply I. reflexivity.
  - destruct (IH (fun j Hj => H j (or_intror Hj))) as (r & -> & R). exists r. split; [reflexivity|]. destruct r; [exact R|]. intros j [<-|Hj]; [|apply R; exact Hj].
    rewrite Y. intros Q. injection Q as ->. destruct I as [_ I]. discriminate I. reflexivity.
Qed.
Lemma create : forall d cs c, Inv d cs -> exists d' i ext, Create d c = Ok (d', i) /\ Inv d' (cs ++ ext) /\ nth_error (cs ++ ext) i = Some c.
Proof.
  intros d cs c I. pose proof I as (W & FR & F & ND & BK). unfold Create. set (h := (HashVal c mod tabsize)%Z).
  destruct (searches d cs c I (bucket d h)) as (r & -> & R).
  { intros i Hi. apply BK in Hi as (y & Y & _). eauto. }
  cbn [bind]. destruct r as [i|].
  { exists d, i, []. rewrite app_nil_r. auto. }
  destruct (allocate (bufs d) (free d) (length c) W FR) as (B1 & fr1 & p & -> & W1 & FR1 & (z & X) & U & O & P). cbn [bind].
  pose proof (used_le _ _ W FR) as UL. pose proof (used_le _ _ W1 FR1) as UL1. set (u := used (bufs d) (free d)) in *.
  destruct (copy (S (length c)) c B1 p (firstn u (concat B1)) (firstn (length c) (skipn u (concat B1))) (skipn (length c) (skipn u (concat B1)))) as (B2 & -> & W2 & LB & E2).
  { lia. } { exact W1. } { exact O. } { rewrite firstn_skipn, firstn_skipn. reflexivity. } { rewrite firstn_length. lia. } { rewrite firstn_length, skipn_length. lia. }
  cbn [bind]. assert (U2 : forall f, used B2 f = used B1 f).
  { intros f. unfold used. destruct B1, B2; cbn [length] in *; try discriminate; try reflexivity. rewrite LB. reflexivity. }
  assert (PRE : firstn u (concat B2) = firstn u (concat (bufs d))).
  { rewrite E2, firstn_len by (rewrite firstn_length; lia). rewrite X, firstn_app. replace (u - length (concat (bufs d))) with 0 by lia. rewrite firstn_O, app_nil_r. reflexivity. }
  do 2 eexists. exists [c]. split; [reflexivity|]. pose proof (F2_len _ _ _ _ _ F) as LF. split.
  - split; [exact W2|]. split; [exact FR1|]. cbn [bufs free strs bucket]. split; [|split].
    + apply Forall2_app.
      * eapply F2_impl; [|exact F]. intros s y [[L1 A1] Q]. cbn beta. split; [split; [exact L1|]|].
        -- apply (at_keep (bufs d) B2 _ _ u); [exact A1|exact Q|exact PRE].
        -- rewrite U2, U. lia.
      * constructor; [|constructor]. split; [split; [reflexivity|]|].
        -- cbn [sbuf soffset]. destruct p as [b o]. cbn [fst snd] in *. split; [exact O|]. exists (firstn u (concat B1)). eexists. split; [exact E2|]. rewrite firstn_length, P. lia.
        -- cbn [sbuf soffset]. destruct p as [b o]. cbn [fst snd]. rewrite P, U2, U. lia.
    + rewrite <- (rev_involutive (cs ++ [c])). apply NoDup_rev. rewrite rev_app_distr. cbn [rev app]. constructor; [|apply NoDup_rev; exact ND].
      rewrite <- in_rev. intros Q. apply In_nth_error in Q as (j & Q). apply (R j); [|exact Q]. apply BK. exists c. auto.
    + intros k i. destruct (k =? h)%Z eqn:K.
      * apply Z.eqb_eq in K. subst k. cbn [In]. rewrite BK. split.
        -- intros [<-|(y & Y & Q)].
           ++ exists c. rewrite LF, nth_error_app2, Nat.sub_diag by lia. auto.
           ++ exists y. rewrite nth_error_app1; [auto|]. apply nth_error_Some. congruence.
        -- intros (y & Y & Q). destruct (Nat.lt_ge_cases i (length cs)) as [L|L].
           ++ right. exists y. rewrite nth_error_app1 in Y by exact L. auto.
           ++ left. rewrite nth_error_app2 in Y by exact L. destruct (i - length cs) as [|m] eqn:M; [lia|]. destruct m; discriminate.
      * apply Z.eqb_neq in K. rewrite BK. split; intros (y & Y & Q); exists y.
        -- rewrite nth_error_app1; [auto|]. apply nth_error_Some. congruence.
        -- destruct (Nat.lt_ge_cases i (length cs)) as [L|L]; [rewrite nth_error_app1 in Y by exact L; auto|].
           rewrite nth_error_app2 in Y by exact L. destruct (i - length cs) as [|[|m]]; cbn in Y; try discriminate. injection Y as <-. exfalso. apply K. symmetry. exact Q.
  - rewrite LF, nth_error_app2, Nat.sub_diag by lia. reflexivity.
Qed.
Lemma Inv0 : Inv CreateDomain [].
Proof.
  split; [constructor|]. split; [cbn; lia|]. split; [constructor|]. split; [constructor|]. intros h i. cbn. split; [intros []|]. intros (c & H & _). destruct i; discriminate.
Qed.
Lemma creates_inv : forall l d cs, Inv d cs -> exists d' ids ext, creates d l = Ok (d', ids) /\ Inv d' (cs ++ ext) /\ Forall2 (fun c i => nth_error (cs ++ ext) i = Some c) l ids.
Proof.
  induction l as [|c l IH]; intros d cs I; cbn [creates]; [exists d, [], []; rewrite app_nil_r; auto|].
  destruct (create d cs c I) as (d1 & i & e1 & -> & I1 & N1). cbn [bind fst snd]. destruct (IH d1 (cs ++ e1) I1) as (d2 & ids & e2 & -> & I2 & N2). cbn [bind fst snd].
  exists d2, (i :: ids), (e1 ++ e2). rewrite app_assoc. split; [reflexivity|]. split; [exact I2|]. constructor; [|exact N2].
  rewrite nth_error_app1; [exact N1|]. apply nth_error_Some. congruence.
Qed.
Lemma F2_nth2 : forall A B (R : A -> B -> Prop) l m i x y, Forall2 R l m -> nth_error l i = Some x -> nth_error m i = Some y -> R x y.
Proof. intros A B R l m i x y H. revert i. induction H; intros [|i] E1 E2; cbn in *; try discriminate; [congruence|eauto]. Qed.
Lemma made_holds : forall d s c, made d s c -> wf (bufs d) /\ holds (bufs d) s c.
Proof.
  intros d s c (l & ids & k & i & C & K1 & K2 & S1). destruct (creates_inv l _ _ Inv0) as (d' & ids' & ext & C' & I & F). rewrite C in C'. injection C' as <- <-. cbn [app] in *.
  pose proof (F2_nth2 _ _ _ _ _ _ _ _ F K1 K2) as N. cbn beta in N. destruct I as (W & _ & FS & _). split; [exact W|].
  pose proof (F2_nth2 _ _ _ _ _ _ _ _ FS S1 N) as [H _]. exact H.
Qed.
