From Verif Require Import Base ArrZ HeapModel.
Require Import Permutation.

Lemma ix_upd : forall a i j x, 0 <= i < zlen a -> 0 <= j -> ix (set_nth (Z.to_nat i) x a) j = if j =? i then x else ix a j.
Proof. intros a i j x Hi Hj. rewrite ix_set by lia. destruct (j =? i) eqn:E; destruct (i =? j) eqn:F; try reflexivity; lia. Qed.

Definition cnt (y : Z) (a : list Z) : Z := Z.of_nat (count_occ Z.eq_dec a y).
Definition one (b : bool) : Z := if b then 1 else 0.
Lemma cnt_set : forall y x a i, 0 <= i < zlen a -> cnt y (set_nth (Z.to_nat i) x a) = cnt y a - one (ix a i =? y) + one (x =? y).
Proof.
  intros y x a i Hi. unfold cnt, ix. assert (L : (Z.to_nat i < length a)%nat) by (unfold zlen in Hi; lia). generalize dependent (Z.to_nat i). clear Hi i. intro n. revert n.
  induction a as [|b a IH]; intros n L; [cbn in L; lia|]. destruct n as [|n]; cbn [set_nth nth count_occ].
  - unfold one. destruct (Z.eq_dec x y); destruct (Z.eq_dec b y); destruct (b =? y) eqn:E1; destruct (x =? y) eqn:E2; lia.
  - cbn [length] in L. specialize (IH n ltac:(lia)). destruct (Z.eq_dec b y); lia.
Qed.
Lemma cnt_perm : forall a b, (forall y, cnt y a = cnt y b) -> Permutation a b.
Proof. intros a b H. apply (Permutation_count_occ Z.eq_dec). intro y. specialize (H y). unfold cnt in H. lia. Qed.

(** Every node from l on is at least as large as its children up to r. *)
Definition child (p c : Z) : Prop := c = 2 * p + 1 \/ c = 2 * p + 2.
Definition heapfrom (a : list Z) (l r : Z) : Prop := forall p c, l <= p -> child p c -> c <= r -> ix a c <= ix a p.

Lemma sift_loop_spec : forall fuel i h r x a l, 0 <= l <= h -> h <= r -> r < zlen a -> (Z.to_nat (r - h) < fuel)%nat ->
  (forall p c, l <= p -> p <> h -> c <> h -> child p c -> c <= r -> ix a c <= ix a p) ->
  (forall p, l <= p -> child p h -> x <= ix a p /\ forall c, child h c -> c <= r -> ix a c <= ix a p) ->
  exists a', sift_loop fuel i h r x a = Ok a' /\ zlen a' = zlen a /\ heapfrom a' l r /\
    (forall y, cnt y a' = cnt y (set_nth (Z.to_nat h) x a)) /\
    (forall P : Z -> Prop, P x -> (forall k, l <= k <= r -> P (ix a k)) -> forall k, l <= k <= r -> P (ix a' k)) /\
    (forall k, 0 <= k -> k < l \/ r < k -> ix a' k = ix a k).
Proof.
  induction fuel as [|fuel IH]; intros i h r x a l Hl Hh Hr Hf H1 H2; [lia|]. cbn [sift_loop].
  assert (J : exists j, (if 2 * h + 1 <? r then let* u := getA a (2 * h + 1) in let* v := getA a (2 * h + 1 + 1) in Ok (if u <? v then 2 * h + 1 + 1 else 2 * h + 1) else Ok (2 * h + 1)) = Ok j /\
     child h j /\ (j <= r -> forall c, child h c -> c <= r -> ix a c <= ix a j) /\ (r < j -> forall c, child h c -> r < c)).
  { destruct (2 * h + 1 <? r) eqn:E.
    - rewrite !getA_ix by lia. rewrite !bind_ok. destruct (ix a (2 * h + 1) <? ix a (2 * h + 1 + 1)) eqn:F.
      + exists (2 * h + 1 + 1). split; auto. split; [right; lia|]. split; [|lia]. intros _ c [-> | ->] _; [lia|]. replace (2 * h + 2) with (2 * h + 1 + 1) by lia. lia.
      + exists (2 * h + 1). split; auto. split; [left; lia|]. split; [|lia]. intros _ c [-> | ->] _; [lia|]. replace (2 * h + 2) with (2 * h + 1 + 1) by lia. lia.
    - exists (2 * h + 1). split; auto. split; [left; lia|]. split.
      + intros J c [-> | ->] Hc; lia.
      + intros J c [-> | ->]; lia. }
  destruct J as (j & -> & Cj & Jmax & Jout). rewrite bind_ok. assert (Jh : h < j) by (destruct Cj; lia).
  assert (Fin : (forall c, child h c -> c <= r -> ix a c <= x) ->
    exists a', setA a h x = Ok a' /\ zlen a' = zlen a /\ heapfrom a' l r /\
    (forall y, cnt y a' = cnt y (set_nth (Z.to_nat h) x a)) /\
    (forall P : Z -> Prop, P x -> (forall k, l <= k <= r -> P (ix a k)) -> forall k, l <= k <= r -> P (ix a' k)) /\
    (forall k, 0 <= k -> k < l \/ r < k -> ix a' k = ix a k)).
  { intro C. rewrite setA_ix by lia. eexists. split; [reflexivity|]. split; [apply zlen_set|]. split; [|split; [|split]].
    - intros p c Hp Hc Cr. assert (0 <= c) by (destruct Hc; lia). rewrite !ix_upd by lia. destruct (c =? h) eqn:E1; destruct (p =? h) eqn:E2.
      + destruct Hc; lia.
      + replace c with h in Hc by lia. apply (H2 p Hp Hc).
      + replace p with h in Hc by lia. apply C; auto.
      + apply H1; auto; lia.
    - reflexivity.
    - intros P Px Pa k Hk. rewrite ix_upd by lia. destruct (k =? h); auto.
    - intros k Hk Ho. rewrite ix_upd by lia. replace (k =? h) with false by lia. reflexivity. }
  destruct (j >? r) eqn:E.
  - rewrite bind_ok. cbv iota. apply Fin. intros c Hc Cr. specialize (Jout ltac:(lia) c Hc). lia.
  - rewrite getA_ix, bind_ok by lia. rewrite bind_ok. destruct (ix a j <=? x) eqn:F.
    + apply Fin. intros c Hc Cr. specialize (Jmax ltac:(lia) c Hc Cr). lia.
    + rewrite bind_ok. rewrite setA_ix, bind_ok by lia. set (a1 := set_nth (Z.to_nat h) (ix a j) a).
      assert (L1 : zlen a1 = zlen a) by apply zlen_set.
      assert (X1 : forall k, 0 <= k -> ix a1 k = if k =? h then ix a j else ix a k) by (intros; apply ix_upd; lia).
      destruct (IH h j r x a1 l) as (a' & A & B & C & D & G & K); try lia.
      * intros p c Hp Np Nc Hc Cr. assert (0 <= c) by (destruct Hc; lia). rewrite !X1 by lia. destruct (c =? h) eqn:E1; destruct (p =? h) eqn:E2.
        -- destruct Hc; lia.
        -- replace c with h in Hc by lia. apply (proj2 (H2 p Hp Hc)); auto. lia.
        -- replace p with h in Hc by lia. apply Jmax; auto. lia.
        -- apply H1; auto; lia.
      * intros p Hp Hc. assert (p = h) by (destruct Hc; destruct Cj; lia). subst p. rewrite X1 by lia. rewrite Z.eqb_refl. split; [lia|].
        intros c Hc' Cr. assert (0 <= c) by (destruct Hc'; lia). rewrite X1 by lia. replace (c =? h) with false by (destruct Hc'; lia). apply H1; auto; try lia. destruct Hc'; lia.
      * exists a'. split; auto. split; [lia|]. split; auto. split; [|split].
        -- intro y. rewrite D. rewrite cnt_set by lia. rewrite X1 by lia. replace (j =? h) with false by lia. unfold a1. rewrite !cnt_set by lia. lia.
        -- intros P Px Pa. apply G; auto. intros k Hk. rewrite X1 by lia. destruct (k =? h); apply Pa; lia.
        -- intros k Hk Ho. rewrite K by auto. rewrite X1 by lia. replace (k =? h) with false by lia. reflexivity.
Qed.

Lemma Sift_spec : forall fuel l r a, 0 <= l <= r -> r < zlen a -> (Z.to_nat r < fuel)%nat -> heapfrom a (l + 1) r ->
  exists a', Sift fuel l r a = Ok a' /\ zlen a' = zlen a /\ heapfrom a' l r /\ (forall y, cnt y a' = cnt y a) /\
    (forall P : Z -> Prop, (forall k, l <= k <= r -> P (ix a k)) -> forall k, l <= k <= r -> P (ix a' k)) /\
    (forall k, 0 <= k -> k < l \/ r < k -> ix a' k = ix a k).
Proof.
  intros fuel l r a Hl Hr Hf H. unfold Sift. rewrite getA_ix, bind_ok by lia.
  destruct (sift_loop_spec fuel l l r (ix a l) a l) as (a' & A & B & C & D & E & F); try lia.
  - intros p c Hp Np Nc Hc Cr. apply H; auto; lia.
  - intros p Hp Hc. destruct Hc; lia.
  - exists a'. split; auto. split; auto. split; auto. split; [|split; auto].
    + intro y. rewrite D, cnt_set by lia. lia.
    + intros P HP. apply E; auto. apply HP. lia.
Qed.

Lemma build_loop_spec : forall fuel l r a, 0 <= l <= r + 1 -> r < zlen a -> (Z.to_nat (l + r + 1) < fuel)%nat -> heapfrom a l r ->
  exists a', build_loop fuel l r a = Ok a' /\ zlen a' = zlen a /\ heapfrom a' 0 r /\ (forall y, cnt y a' = cnt y a) /\ (forall k, r < k -> 0 <= k -> ix a' k = ix a k).
Proof.
  induction fuel as [|fuel IH]; intros l r a Hl Hr Hf H; [lia|]. cbn [build_loop]. destruct (l >? 0) eqn:E.
  - destruct (Sift_spec fuel (l - 1) r a) as (a1 & A & B & C & D & F & G); try lia; [replace (l - 1 + 1) with l by lia; auto|]. rewrite A, bind_ok.
    destruct (IH (l - 1) r a1) as (a2 & A2 & B2 & C2 & D2 & G2); try lia; auto. exists a2. split; auto. split; [lia|]. split; auto. split; [intro y; rewrite D2; auto|].
    intros k Hk K0. rewrite G2, G by auto. reflexivity.
  - replace l with 0 in * by lia. exists a. auto.
Qed.

Lemma heap_max : forall a r, heapfrom a 0 r -> forall k, 0 <= k <= r -> ix a k <= ix a 0.
Proof.
  intros a r H k. assert (G : forall n k, (Z.to_nat k < n)%nat -> 0 <= k <= r -> ix a k <= ix a 0).
  { induction n as [|n IH]; intros j Hj Hk; [lia|]. destruct (Z.eq_dec j 0) as [->|N]; [lia|]. set (p := (j - 1) / 2). assert (child p j) by (unfold child, p; lia).
    assert (ix a j <= ix a p) by (apply H; auto; unfold p; lia). specialize (IH p ltac:(unfold p; lia) ltac:(unfold p; lia)). lia. }
  intro Hk. apply (G (S (Z.to_nat k))); auto; lia.
Qed.

Lemma sort_loop_spec : forall fuel r n a, -1 <= r < n -> n <= zlen a -> (Z.to_nat (2 * r + 2) < fuel)%nat -> heapfrom a 0 r ->
  (forall i j, 0 <= i <= j -> r < j < n -> ix a i <= ix a j) ->
  exists a', sort_loop fuel r a = Ok a' /\ zlen a' = zlen a /\ (forall i j, 0 <= i <= j -> j < n -> ix a' i <= ix a' j) /\
    (forall y, cnt y a' = cnt y a) /\ (forall k, 0 <= k -> n <= k -> ix a' k = ix a k).
Proof.
  induction fuel as [|fuel IH]; intros r n a Hr Hn Hf H S; [lia|]. cbn [sort_loop]. destruct (r >? 0) eqn:E.
  - rewrite !getA_ix by lia. rewrite !bind_ok. rewrite setA_ix, bind_ok by lia. set (b1 := set_nth (Z.to_nat 0) (ix a r) a).
    assert (L1 : zlen b1 = zlen a) by apply zlen_set. rewrite setA_ix, bind_ok by lia. set (b2 := set_nth (Z.to_nat r) (ix a 0) b1).
    assert (L2 : zlen b2 = zlen a) by (unfold b2; rewrite zlen_set; auto).
    assert (X2 : forall k, 0 <= k -> ix b2 k = if k =? r then ix a 0 else if k =? 0 then ix a r else ix a k).
    { intros k Hk. unfold b2. rewrite ix_upd by lia. destruct (k =? r); auto. unfold b1. rewrite ix_upd by lia. reflexivity. }
    assert (M : forall k, 0 <= k <= r -> ix a k <= ix a 0) by (apply heap_max; auto).
    assert (M2 : forall k, 0 <= k <= r -> ix b2 k <= ix a 0).
    { intros k Hk. rewrite X2 by lia. destruct (k =? r); [lia|]. destruct (k =? 0); apply M; lia. }
    destruct (Sift_spec fuel 0 (r - 1) b2) as (a1 & A & B & C & D & F & G); try lia.
    { intros p c Hp Hc Cr. assert (0 <= c) by (destruct Hc; lia). rewrite !X2 by lia. replace (c =? r) with false by lia. replace (p =? r) with false by (destruct Hc; lia).
      replace (c =? 0) with false by (destruct Hc; lia). replace (p =? 0) with false by lia. apply H; auto; lia. }
    rewrite A, bind_ok. destruct (IH (r - 1) n a1) as (a2 & A2 & B2 & C2 & D2 & G2); try lia; auto.
    + intros i j Hi Hj. destruct (Z.eq_dec j r) as [->|N].
      * rewrite (G r) by lia. rewrite X2, Z.eqb_refl by lia. destruct (Z.eq_dec i r) as [->|N2]; [rewrite G, X2, Z.eqb_refl by lia; lia|].
        apply (F (fun v => v <= ix a 0)); [|lia]. intros k Hk. apply M2; lia.
      * rewrite (G j) by lia. rewrite (X2 j) by lia. replace (j =? r) with false by lia. replace (j =? 0) with false by lia.
        destruct (Z_lt_le_dec (r - 1) i) as [Q|Q].
        -- rewrite (G i) by lia. rewrite X2 by lia. destruct (i =? r); [apply S; lia|]. destruct (i =? 0) eqn:Q0; [lia|]. apply S; lia.
        -- apply (F (fun v => v <= ix a j)); [|lia]. intros k Hk. rewrite X2 by lia. destruct (k =? r); [apply S; lia|]. destruct (k =? 0); apply S; lia.
    + exists a2. split; auto. split; [lia|]. split; auto. split.
      * intro y. rewrite D2, D. unfold b2. rewrite cnt_set by lia. unfold b1. rewrite cnt_set by lia. rewrite ix_upd by lia. replace (r =? 0) with false by lia. lia.
      * intros k Hk Kn. rewrite G2, G, X2 by lia. replace (k =? r) with false by lia. replace (k =? 0) with false by lia. reflexivity.
  - exists a. split; auto. split; auto. split; [|auto]. intros i j Hi Hj. destruct (Z_lt_le_dec r j) as [Q|Q]; [apply S; lia|]. replace i with j by lia. lia.
Qed.

Lemma HeapSort_spec : forall n a fuel, 0 <= n <= zlen a -> (Z.to_nat (2 * n + 2) < fuel)%nat ->
  exists a', HeapSort fuel n a = Ok a' /\ zlen a' = zlen a /\ (forall i j, 0 <= i <= j -> j < n -> ix a' i <= ix a' j) /\ Permutation a a' /\ (forall k, 0 <= k -> n <= k -> ix a' k = ix a k).
Proof.
  intros n a fuel Hn Hf. unfold HeapSort. destruct (build_loop_spec fuel (n / 2) (n - 1) a) as (a1 & A & B & C & D & G); try lia.
  - intros p c Hp Hc Cr. destruct Hc; lia.
  - rewrite A, bind_ok. destruct (sort_loop_spec fuel (n - 1) n a1) as (a2 & A2 & B2 & C2 & D2 & G2); try lia; auto.
    exists a2. split; auto. split; [lia|]. split; auto. split; [apply cnt_perm; intro y; rewrite D2, D; auto|].
    intros k Hk Kn. rewrite G2, G by lia. reflexivity.
Qed.
