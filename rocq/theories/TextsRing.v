(** Doubly linked rings: paths through the [next] and [prev] maps (for C32). *)
From Verif Require Import Base TextsModel.

Fixpoint npath (f : loc -> loc) (w : list loc) : Prop :=
  match w with
  | a :: ((b :: _) as w') => f a = b /\ npath f w'
  | _ => True
  end.
Fixpoint ppath (g : loc -> loc) (w : list loc) : Prop :=
  match w with
  | a :: ((b :: _) as w') => g b = a /\ ppath g w'
  | _ => True
  end.

Lemma upd_eq : forall A (f : nat -> A) a x, upd f a x a = x.
Proof. intros. unfold upd. rewrite Nat.eqb_refl. reflexivity. Qed.
Lemma upd_neq : forall A (f : nat -> A) a x b, b <> a -> upd f a x b = f b.
Proof. intros. unfold upd. apply Nat.eqb_neq in H. rewrite H. reflexivity. Qed.

Lemma npath_app : forall f xs a ys, npath f (xs ++ a :: ys) <-> npath f (xs ++ [a]) /\ npath f (a :: ys).
Proof.
  intros f. induction xs as [|x xs IH]; intros a ys; [cbn [app]; cbn [npath]; tauto|].
  destruct xs as [|x' xs].
  - cbn [app] in *. cbn [npath]. tauto.
  - specialize (IH a ys). cbn [app] in *. cbn [npath] in *. tauto.
Qed.
Lemma ppath_app : forall f xs a ys, ppath f (xs ++ a :: ys) <-> ppath f (xs ++ [a]) /\ ppath f (a :: ys).
Proof.
  intros f. induction xs as [|x xs IH]; intros a ys; [cbn [app]; cbn [ppath]; tauto|].
  destruct xs as [|x' xs].
  - cbn [app] in *. cbn [ppath]. tauto.
  - specialize (IH a ys). cbn [app] in *. cbn [ppath] in *. tauto.
Qed.
Lemma npath_two : forall f xs a b ys,
  npath f (xs ++ a :: b :: ys) <-> npath f (xs ++ [a]) /\ f a = b /\ npath f (b :: ys).
Proof. intros. rewrite npath_app. change (npath f (a :: b :: ys)) with (f a = b /\ npath f (b :: ys)). tauto. Qed.
Lemma ppath_two : forall f xs a b ys,
  ppath f (xs ++ a :: b :: ys) <-> ppath f (xs ++ [a]) /\ f b = a /\ ppath f (b :: ys).
Proof. intros. rewrite ppath_app. change (ppath f (a :: b :: ys)) with (f b = a /\ ppath f (b :: ys)). tauto. Qed.

(** Only the values at the listed cells matter. *)
Lemma npath_ext : forall f f' w, npath f w -> (forall a, In a (removelast w) -> f' a = f a) -> npath f' w.
Proof.
  intros f f'. induction w as [|a w IH]; intros H E; [exact I|].
  destruct w as [|b w]; [exact I|]. cbn [npath] in *. destruct H as [H1 H2]. split.
  - rewrite E; auto. left. reflexivity.
  - apply IH; auto. intros c C. apply E. right. exact C.
Qed.
Lemma ppath_ext : forall f f' w, ppath f w -> (forall a, In a (tl w) -> f' a = f a) -> ppath f' w.
Proof.
  intros f f'. induction w as [|a w IH]; intros H E; [exact I|].
  destruct w as [|b w]; [exact I|]. cbn [ppath] in *. destruct H as [H1 H2]. split.
  - rewrite E; auto. left. reflexivity.
  - apply IH; auto. intros c C. apply E. right. destruct w; [destruct C|]. exact C.
Qed.
Lemma npath_upd : forall f w a x, npath f w -> ~ In a (removelast w) -> npath (upd f a x) w.
Proof. intros. eapply npath_ext; eauto. intros. apply upd_neq. intros ->. contradiction. Qed.
Lemma ppath_upd : forall f w a x, ppath f w -> ~ In a (tl w) -> ppath (upd f a x) w.
Proof. intros. eapply ppath_ext; eauto. intros. apply upd_neq. intros ->. contradiction. Qed.

Lemma in_removelast : forall A (w : list A) a, In a (removelast w) -> In a w.
Proof.
  induction w as [|x w IH]; intros a H; auto. destruct w as [|y w]; [destruct H|].
  change (removelast (x :: y :: w)) with (x :: removelast (y :: w)) in H.
  destruct H as [H|H]; [left; auto|right; apply IH; auto].
Qed.
Lemma removelast_snoc : forall A (w : list A) a, removelast (w ++ [a]) = w.
Proof. intros. rewrite removelast_app by discriminate. cbn. apply app_nil_r. Qed.
Lemma removelast_cons2 : forall A (xs : list A) a ys, ys <> [] -> removelast (xs ++ a :: ys) = xs ++ a :: removelast ys.
Proof. intros. rewrite removelast_app by discriminate. f_equal. destruct ys; [congruence|]. reflexivity. Qed.

(** Joining two words by setting one link in each direction. *)
Lemma join_n : forall f xs u un ys, npath f (xs ++ [u]) -> npath f (un :: ys) ->
  ~ In u xs -> ~ In u (removelast (un :: ys)) -> npath (upd f u un) (xs ++ u :: un :: ys).
Proof.
  intros. apply npath_two. conjs.
  - apply npath_upd; auto. rewrite removelast_snoc. auto.
  - apply upd_eq.
  - apply npath_upd; auto.
Qed.
Lemma join_p : forall f xs u un ys, ppath f (xs ++ [u]) -> ppath f (un :: ys) ->
  ~ In un (tl (xs ++ [u])) -> ~ In un ys -> ppath (upd f un u) (xs ++ u :: un :: ys).
Proof.
  intros. apply ppath_two. conjs.
  - apply ppath_upd; auto.
  - apply upd_eq.
  - apply ppath_upd; auto.
Qed.

(** ** Rings: a head and the runs of its ring, in order *)
Definition ring (m : mem) (h : loc) (l : list loc) : Prop :=
  npath (nx m) (h :: l ++ [h]) /\ ppath (pv m) (h :: l ++ [h]) /\ NoDup (h :: l).

Lemma last_snoc_dec : forall A (h : A) l, exists xs u, h :: l = xs ++ [u] /\ u = List.last l h.
Proof.
  intros A h l. revert h. induction l as [|a l IH]; intros h.
  - exists [], h. auto.
  - destruct (IH a) as (xs & u & E & U). exists (h :: xs), u. split; [cbn [app]; rewrite E; reflexivity|].
    rewrite U. clear. revert a. induction l as [|b l IH]; intros a; [reflexivity|].
    change (List.last (a :: b :: l) h) with (List.last (b :: l) h). rewrite <- IH.
    change (List.last (b :: l) a) with (match l with [] => b | _ => List.last l a end).
    destruct l as [|c l]; [reflexivity|]. clear. revert c. induction l as [|d l IH]; intros c; [reflexivity|]. apply (IH d).
Qed.
Lemma head_dec : forall A (h : A) l, exists un ys, l ++ [h] = un :: ys /\ un = hd h l.
Proof. intros A h [|a l]; cbn; eauto. Qed.

Lemma ring_next : forall m h l1 l2, ring m h (l1 ++ l2) -> nx m (List.last l1 h) = hd h l2.
Proof.
  intros m h l1 l2 (N & _ & _). rewrite <- app_assoc in N.
  destruct (last_snoc_dec _ h l1) as (xs & u & E & U). destruct (head_dec _ h l2) as (un & ys & E2 & U2).
  change (h :: l1 ++ l2 ++ [h]) with ((h :: l1) ++ l2 ++ [h]) in N.
  rewrite E, E2, <- app_assoc in N. cbn [app] in N. apply npath_two in N as (_ & N & _). congruence.
Qed.
Lemma ring_prev : forall m h l1 l2, ring m h (l1 ++ l2) -> pv m (hd h l2) = List.last l1 h.
Proof.
  intros m h l1 l2 (_ & N & _). rewrite <- app_assoc in N.
  destruct (last_snoc_dec _ h l1) as (xs & u & E & U). destruct (head_dec _ h l2) as (un & ys & E2 & U2).
  change (h :: l1 ++ l2 ++ [h]) with ((h :: l1) ++ l2 ++ [h]) in N.
  rewrite E, E2, <- app_assoc in N. cbn [app] in N. apply ppath_two in N as (_ & N & _). congruence.
Qed.
Lemma ring_frame : forall m m' h l, ring m h l ->
  (forall a, In a (h :: l) -> nx m' a = nx m a /\ pv m' a = pv m a) -> ring m' h l.
Proof.
  intros m m' h l (N & P & D) F. split; [|split]; auto.
  - eapply npath_ext; eauto. intros a A. apply F.
    change (h :: l ++ [h]) with ((h :: l) ++ [h]) in A. rewrite removelast_snoc in A. auto.
  - eapply ppath_ext; eauto. intros a A. apply F. cbn [tl] in A. apply in_app_iff in A as [A|[A|[]]]; [right|left]; auto.
Qed.
Lemma ring_bd : forall m h l a b, ring m h l -> ring (set_bd m a b) h l.
Proof. intros. eapply ring_frame; eauto. Qed.

(** The last run of a list, as an element of it or the head. *)
Lemma last_in : forall A (h : A) l, In (List.last l h) (h :: l).
Proof. intros. destruct (last_snoc_dec _ h l) as (xs & u & E & U). rewrite E. apply in_app_iff. right. left. auto. Qed.
Lemma hd_in : forall A (h : A) l, In (hd h l) (h :: l).
Proof. intros A h [|a l]; cbn; auto. Qed.
Lemma last_app1 : forall A (l : list A) a h, List.last (l ++ [a]) h = a.
Proof. intros A l a h. apply List.last_last. Qed.

Lemma app_eq_split : forall A (xs : list A) u ys zs, NoDup (xs ++ u :: ys) -> xs ++ u :: ys = zs -> ~ In u xs /\ ~ In u ys.
Proof.
  intros A xs u ys zs H _. apply NoDup_remove_2 in H. rewrite in_app_iff in H. tauto.
Qed.

(** *** Inserting the word [X] between [l1] and [l2] *)
Lemma ring_insert : forall m m' h l1 l2 X x0 X', ring m h (l1 ++ l2) ->
  X = x0 :: X' -> npath (nx m) X -> ppath (pv m) X -> NoDup X ->
  (forall a, In a X -> ~ In a (h :: l1 ++ l2)) ->
  nx m' = upd (upd (nx m) (List.last l1 h) x0) (List.last X' x0) (hd h l2) ->
  pv m' = upd (upd (pv m) x0 (List.last l1 h)) (hd h l2) (List.last X' x0) ->
  ring m' h (l1 ++ X ++ l2).
Proof.
  intros m m' h l1 l2 X x0 X' (N & P & D) EX NX PX DX DJ EN EP.
  destruct (last_snoc_dec _ h l1) as (xs & u & E1 & U). destruct (head_dec _ h l2) as (un & ys & E2 & U2).
  destruct (last_snoc_dec _ x0 X') as (zs & w & E3 & W). rewrite <- EX in E3.
  rewrite <- U, <- U2, <- W in *. clear U W.
  assert (DY : ~ In un ys).
  { clear - D E2. destruct l2 as [|y l2].
    - cbn in E2. injection E2 as <- <-. auto.
    - cbn [app] in E2. injection E2 as <- <-. intros A. apply in_app_iff in A as [A|[A|[]]].
      + change (h :: l1 ++ y :: l2) with ((h :: l1) ++ y :: l2) in D. apply NoDup_remove_2 in D. apply D. apply in_app_iff. auto.
      + subst h. change (y :: l1 ++ y :: l2) with ((y :: l1) ++ y :: l2) in D. apply NoDup_remove_2 in D. apply D. left. auto. }
  rewrite <- app_assoc in N, P. change (h :: l1 ++ l2 ++ [h]) with ((h :: l1) ++ l2 ++ [h]) in N, P.
  rewrite E1, E2 in N, P. rewrite <- app_assoc in N, P. cbn [app] in N, P.
  apply npath_two in N as (N1 & N2 & N3). apply ppath_two in P as (P1 & P2 & P3).
  assert (D0 : NoDup (xs ++ u :: l2)).
  { change (h :: l1 ++ l2) with ((h :: l1) ++ l2) in D. rewrite E1, <- app_assoc in D. exact D. }
  assert (D1 : ~ In u xs /\ ~ In u l2) by (eapply app_eq_split; eauto).
  assert (HIN : In h (xs ++ [u])) by (rewrite <- E1; left; auto).
  assert (RL : removelast (un :: ys) = l2).
  { rewrite <- E2. apply removelast_snoc. }
  assert (SUB : forall a, In a (xs ++ u :: l2) -> In a (h :: l1 ++ l2)).
  { intros a A. change (h :: l1 ++ l2) with ((h :: l1) ++ l2). rewrite E1, <- app_assoc. exact A. }
  assert (UX : ~ In u X) by (intros A; apply (DJ u A); apply SUB; apply in_app_iff; right; left; auto).
  assert (INW : In w X) by (rewrite E3; apply in_app_iff; right; left; auto).
  assert (INx0 : In x0 X) by (rewrite EX; left; auto).
  assert (WNO : ~ In w (xs ++ u :: l2)) by (intros A; apply (DJ w INW); auto).
  assert (XNO : ~ In x0 (xs ++ u :: l2)) by (intros A; apply (DJ x0 INx0); auto).
  assert (WZ : ~ In w zs) by (rewrite E3 in DX; apply NoDup_remove_2 in DX; rewrite app_nil_r in DX; auto).
  assert (NIL2 : forall a, In a (un :: ys) -> In a l2 \/ a = h).
  { intros a A. rewrite <- E2 in A. apply in_app_iff in A as [A|[A|[]]]; auto. }
  assert (HSUB : In h (xs ++ u :: l2)).
  { change (u :: l2) with ([u] ++ l2). rewrite app_assoc. apply in_app_iff. left. auto. }
  assert (UNX : ~ In un X).
  { intros A. destruct (NIL2 un ltac:(left; auto)) as [Q|Q].
    - apply (DJ un A). apply SUB. apply in_app_iff. right. right. auto.
    - subst un. rewrite Q in A. apply (DJ h A). left. auto. }
  assert (YSX : ~ In x0 (un :: ys)).
  { intros A. destruct (NIL2 x0 A) as [Q|Q]; [apply XNO; apply in_app_iff; right; right; auto|].
    subst x0. apply XNO. auto. }
  split; [|split].
  - rewrite EN. rewrite <- !app_assoc. change (h :: l1 ++ X ++ l2 ++ [h]) with ((h :: l1) ++ X ++ l2 ++ [h]).
    rewrite E1, E2, E3.
    replace ((xs ++ [u]) ++ (zs ++ [w]) ++ un :: ys) with ((xs ++ u :: zs) ++ w :: un :: ys)
      by (rewrite <- !app_assoc; reflexivity).
    apply join_n.
    + rewrite <- app_assoc. change ((u :: zs) ++ [w]) with (u :: zs ++ [w]). rewrite <- E3, EX. apply join_n; auto.
      * rewrite <- EX. auto.
      * tauto.
      * rewrite <- EX, E3, removelast_snoc. intros A. apply UX. rewrite E3. apply in_app_iff. auto.
    + apply npath_upd; auto. rewrite RL. tauto.
    + intros A. apply in_app_iff in A as [A|[A|A]]; [apply WNO; apply in_app_iff; auto| |tauto].
      subst u. apply WNO. apply in_app_iff. right. left. auto.
    + rewrite RL. intros A. apply WNO. apply in_app_iff. right. right. auto.
  - rewrite EP. rewrite <- !app_assoc. change (h :: l1 ++ X ++ l2 ++ [h]) with ((h :: l1) ++ X ++ l2 ++ [h]).
    rewrite E1, E2, E3.
    replace ((xs ++ [u]) ++ (zs ++ [w]) ++ un :: ys) with ((xs ++ u :: zs) ++ w :: un :: ys)
      by (rewrite <- !app_assoc; reflexivity).
    apply join_p; auto.
    + rewrite <- app_assoc. change ((u :: zs) ++ [w]) with (u :: zs ++ [w]). rewrite <- E3, EX. apply join_p; auto.
      * rewrite <- EX. auto.
      * intros A. apply XNO. assert (In x0 (xs ++ [u])) by (destruct xs; [destruct A|right; auto]).
        apply in_app_iff in H as [H|[H|[]]]; apply in_app_iff; [auto|right; left; auto].
      * rewrite EX in DX. inversion DX; auto.
    + apply ppath_upd; auto. intros A. apply YSX. right. auto.
    + rewrite <- app_assoc. change ((u :: zs) ++ [w]) with (u :: zs ++ [w]). rewrite <- E3.
      intros A. assert (A' : In un (tl (xs ++ [u])) \/ In un X).
      { destruct xs as [|c xs]; cbn [app tl] in A |- *; [auto|]. apply in_app_iff in A as [A|[A|A]]; auto; left; apply in_app_iff; auto.
        right. left. auto. }
      destruct A' as [A'|A']; auto.
      assert (T1 : tl (xs ++ [u]) = l1) by (rewrite <- E1; reflexivity). rewrite T1 in A'.
      destruct (NIL2 un ltac:(left; auto)) as [Q|Q].
      * apply NoDup_cons_iff in D as [_ H2]. clear - H2 A' Q. apply in_split in Q as (p & q & ->). rewrite app_assoc in H2.
        apply NoDup_remove_2 in H2. apply H2. apply in_app_iff. left. apply in_app_iff. auto.
      * rewrite Q in A'. apply NoDup_cons_iff in D as [H1 _]. apply H1. apply in_app_iff. auto.
  - change (h :: l1 ++ X ++ l2) with ((h :: l1) ++ X ++ l2). rewrite E1.
    assert (D2 : NoDup ((xs ++ [u]) ++ l2)) by (rewrite <- app_assoc; exact D0).
    assert (DJ' : forall a, In a X -> ~ In a ((xs ++ [u]) ++ l2)).
    { intros a A B. apply (DJ a A). apply SUB. rewrite <- app_assoc in B. exact B. }
    clear - D2 DX DJ'. revert D2 DJ'. generalize (xs ++ [u]) as A. intros A. induction A as [|a A IH]; intros D2 DJ'.
    + cbn [app] in *. revert DJ'. induction X as [|x X IHX]; intros; auto. inversion DX; subst. cbn [app]. constructor.
      * intros B. apply in_app_iff in B as [B|B]; auto. apply (DJ' x); auto. left. auto.
      * apply IHX; auto. intros. apply DJ'. right. auto.
    + cbn [app] in *. inversion D2; subst. constructor.
      * intros B. apply in_app_iff in B as [B|B]; [apply H1; apply in_app_iff; auto|].
        apply in_app_iff in B as [B|B]; [apply (DJ' a B); left; auto|apply H1; apply in_app_iff; auto].
      * apply IH; auto. intros b B C. apply (DJ' b B). right. auto.
Qed.

(** *** Removing the middle *)
Lemma ring_cut : forall m m' h l1 X l2, ring m h (l1 ++ X ++ l2) ->
  (forall a, In a (h :: l1 ++ l2) -> nx m' a = upd (nx m) (List.last l1 h) (hd h l2) a) ->
  (forall a, In a (h :: l1 ++ l2) -> pv m' a = upd (pv m) (hd h l2) (List.last l1 h) a) ->
  ring m' h (l1 ++ l2).
Proof.
  intros m m' h l1 X l2 (N & P & D) EN EP.
  destruct (last_snoc_dec _ h l1) as (xs & u & E1 & U). destruct (head_dec _ h l2) as (un & ys & E2 & U2).
  rewrite <- U, <- U2 in *.
  rewrite <- !app_assoc in N, P.
  change (h :: l1 ++ X ++ l2 ++ [h]) with ((h :: l1) ++ X ++ l2 ++ [h]) in N, P.
  rewrite E1, E2 in N, P. rewrite <- app_assoc in N, P. cbn [app] in N, P.
  apply npath_app in N as [N1 N2]. apply ppath_app in P as [P1 P2].
  change (u :: X ++ un :: ys) with ((u :: X) ++ un :: ys) in N2, P2.
  apply npath_app in N2 as [_ N3]. apply ppath_app in P2 as [_ P3].
  assert (D0 : NoDup (xs ++ u :: l2)).
  { change (xs ++ u :: l2) with (xs ++ [u] ++ l2). rewrite app_assoc, <- E1.
    change (h :: l1 ++ X ++ l2) with ((h :: l1) ++ X ++ l2) in D.
    clear - D. revert D. generalize (h :: l1) as A. intros A. induction A as [|a A IH]; intros D; cbn [app] in *.
    - induction X; auto. inversion D; auto.
    - inversion D; subst. constructor; auto. intros B. apply H1. apply in_app_iff in B as [B|B]; apply in_app_iff; auto.
      right. apply in_app_iff. auto. }
  assert (D1 : ~ In u xs /\ ~ In u l2) by (eapply app_eq_split; eauto).
  assert (W : h :: (l1 ++ l2) ++ [h] = xs ++ u :: un :: ys).
  { rewrite <- app_assoc. change (h :: l1 ++ l2 ++ [h]) with ((h :: l1) ++ l2 ++ [h]). rewrite E1, E2, <- app_assoc. reflexivity. }
  assert (RL : removelast (un :: ys) = l2) by (rewrite <- E2; apply removelast_snoc).
  split; [|split].
  - eapply npath_ext; [|intros a A; apply EN].
    + rewrite W. apply join_n; auto; [tauto|]. rewrite RL. tauto.
    + change (h :: (l1 ++ l2) ++ [h]) with ((h :: (l1 ++ l2)) ++ [h]) in A. rewrite removelast_snoc in A. exact A.
  - eapply ppath_ext; [|intros a A; apply EP].
    + rewrite W. apply join_p; auto.
      * intros A. assert (T1 : tl (xs ++ [u]) = l1) by (rewrite <- E1; reflexivity). rewrite T1 in A.
        assert (Q : In un l2 \/ un = h) by (destruct l2; cbn in U2; subst; [auto|left; left; auto]).
        assert (D2 : NoDup (h :: l1 ++ l2)).
        { change (h :: l1 ++ l2) with ((h :: l1) ++ l2). rewrite E1, <- app_assoc. exact D0. }
        apply NoDup_cons_iff in D2 as [H1 H2]. destruct Q as [Q|Q].
        -- apply in_split in Q as (p & q & Q). rewrite Q in H2. rewrite app_assoc in H2. apply NoDup_remove_2 in H2.
           apply H2. apply in_app_iff. left. apply in_app_iff. auto.
        -- rewrite Q in A. apply H1. apply in_app_iff. auto.
      * destruct l2 as [|y l2].
        -- cbn in E2. inversion E2; subst. auto.
        -- cbn [app] in E2. injection E2 as E2a E2b. subst ys. rewrite <- E2a. intros A. apply in_app_iff in A as [A|[A|[]]].
           ++ change (xs ++ u :: y :: l2) with (xs ++ [u] ++ y :: l2) in D0. rewrite app_assoc in D0.
              apply NoDup_remove_2 in D0. apply D0. apply in_app_iff. auto.
           ++ subst h. change (xs ++ u :: y :: l2) with (xs ++ [u] ++ y :: l2) in D0. rewrite app_assoc in D0.
              rewrite <- E1 in D0. inversion D0; subst. apply H1. apply in_app_iff. right. left. auto.
    + cbn [tl] in A. apply in_app_iff in A as [A|[A|[]]]; [right|left]; auto.
  - change (h :: l1 ++ l2) with ((h :: l1) ++ l2). rewrite E1, <- app_assoc. exact D0.
Qed.
(** The links inside a part of a ring. *)
Lemma ring_part : forall m h l1 X l2, ring m h (l1 ++ X ++ l2) -> npath (nx m) X /\ ppath (pv m) X /\ NoDup X.
Proof.
  intros m h l1 X l2 (N & P & D).
  destruct X as [|x X]; [repeat split; constructor|].
  rewrite <- !app_assoc in N, P.
  change (h :: l1 ++ (x :: X) ++ l2 ++ [h]) with ((h :: l1) ++ x :: X ++ l2 ++ [h]) in N, P.
  apply npath_app in N as [_ N]. apply ppath_app in P as [_ P].
  destruct (last_snoc_dec _ x X) as (zs & w & E & W).
  change (x :: X ++ l2 ++ [h]) with ((x :: X) ++ l2 ++ [h]) in N, P. rewrite E, <- app_assoc in N, P.
  cbn [app] in N, P. apply npath_app in N as [N _]. apply ppath_app in P as [P _]. rewrite <- E in N, P.
  split; [|split]; auto.
  change (h :: l1 ++ (x :: X) ++ l2) with ((h :: l1) ++ (x :: X) ++ l2) in D.
  clear - D. revert D. generalize (h :: l1) as A. induction A as [|a A IH]; cbn [app]; intros D; [|inversion D; auto].
  change (x :: X ++ l2) with ((x :: X) ++ l2) in D. revert D. generalize (x :: X) as Y. induction Y as [|y Y IHY]; intros D; [constructor|].
  cbn [app] in D. inversion D; subst. constructor; [|auto]. intros B. apply H1. apply in_app_iff. auto.
Qed.
