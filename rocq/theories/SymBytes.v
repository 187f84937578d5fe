(** Symbol files: numbers and names in the byte stream, and the search trees. *)
From Verif Require Import Base ScopeModel ScopeProps SymModel.

Lemma rnum_num_ : forall f x l q s, 0 <= s -> (0 < f)%nat -> - 2 ^ (7 * Z.of_nat f - 1) <= x < 2 ^ (7 * Z.of_nat f - 1) ->
  rnum (num_ f x ++ l) q s = (q + x * 2 ^ s, l, false).
Proof.
  induction f as [| f IH]; intros x l q s S0 F H; [lia |]. cbn [num_].
  destruct ((-64 <=? x) && (x <? 64)) eqn:E.
  - cbn [app rnum]. replace (x mod 128 >=? 128) with false by lia.
    replace ((x mod 128) mod 64 - x mod 128 / 64 * 64) with x by lia. reflexivity.
  - cbn [app rnum]. replace (x mod 128 + 128 >=? 128) with true by lia.
    destruct f as [| f]; [exfalso; change (2 ^ (7 * Z.of_nat 1 - 1)) with 64 in H; lia |].
    rewrite IH; [| lia | lia |].
    + f_equal. f_equal. rewrite Z.pow_add_r by lia. change (2 ^ 7) with 128.
      replace (x * 2 ^ s) with ((128 * (x / 128) + x mod 128) * 2 ^ s) by (rewrite <- Z.div_mod by lia; reflexivity). ring.
    + replace (7 * Z.of_nat (S (S f)) - 1) with (7 + (7 * Z.of_nat (S f) - 1)) in H by lia. rewrite Z.pow_add_r in H by lia. change (2 ^ 7) with 128 in H.
      set (p := 2 ^ (7 * Z.of_nat (S f) - 1)) in *. lia.
Qed.
Lemma rnum_num : forall x l, in_int 64 x -> rnum (num x ++ l) 0 0 = (x, l, false).
Proof.
  intros x l H. unfold num. rewrite rnum_num_; [f_equal; f_equal; lia | lia | lia |].
  unfold in_int in H. change (2 ^ (64 - 1)) with 9223372036854775808 in H. change (2 ^ (7 * Z.of_nat 11 - 1)) with 75557863725914323419136. lia.
Qed.
Lemma num_nonempty : forall x, num x <> [].
Proof. intros x. unfold num. cbn [num_]. destruct (_ && _); discriminate. Qed.
Lemma InName_Out : forall n l, ~ In 0 n -> InName (OutName n ++ l) = (n, l, false).
Proof.
  unfold OutName. induction n as [| c n IH]; intros l H; cbn [app InName].
  - reflexivity.
  - destruct (Z.eqb_spec c 0); [exfalso; apply H; left; lia |]. rewrite IH; [reflexivity |]. intros K. apply H. right. exact K.
Qed.

(** The reader over what the writer wrote. *)
Lemma set_inp_false : forall r l, set_inp r l false = mkr l (eof r) (tys r) (mods r) (nofr r) (refs r) (nofm r) (glb r).
Proof. intros. unfold set_inp. now rewrite orb_false_r. Qed.
Lemma SymRInt_num : forall r x l, inp r = num x ++ l -> in_int 32 x -> SymRInt r = Ok (x, set_inp r l false).
Proof.
  intros r x l H B. unfold SymRInt. rewrite H, rnum_num by (unfold in_int in *; change (2 ^ (32 - 1)) with 2147483648 in B; change (2 ^ (64 - 1)) with 9223372036854775808; lia).
  rewrite wrap_s_id by (lia || exact B). reflexivity.
Qed.
Lemma SymRName_out : forall r n l, inp r = OutName n ++ l -> ~ In 0 n -> SymRName r = Ok (n, set_inp r l false).
Proof. intros r n l H B. unfold SymRName. rewrite H, InName_Out by exact B. reflexivity. Qed.

(** Trees. *)
Lemma find_insert : forall (A : Type) (t : tree A) n a n',
  find n' (fst (InsertImport n n a t)) = match find n' t with Some b => Some b | None => if list_eq_dec Z.eq_dec n' n then Some a else None end.
Proof.
  induction t as [| k b l IHl r IHr]; intros n a n'; cbn [InsertImport].
  - cbn [fst find]. destruct (ncmp n' n) eqn:C; destruct (list_eq_dec Z.eq_dec n' n) as [-> | D]; try reflexivity.
    + apply ncmp_eq in C. contradiction.
    + rewrite (proj2 (ncmp_eq n n) eq_refl) in C. discriminate.
    + rewrite (proj2 (ncmp_eq n n) eq_refl) in C. discriminate.
  - destruct (ncmp n k) eqn:C.
    + cbn [fst find]. destruct (ncmp n' k) eqn:C'; [reflexivity | |].
      * destruct (find n' l); [reflexivity |]. destruct (list_eq_dec Z.eq_dec n' n) as [-> | D]; [congruence | reflexivity].
      * destruct (find n' r); [reflexivity |]. destruct (list_eq_dec Z.eq_dec n' n) as [-> | D]; [congruence | reflexivity].
    + specialize (IHl n a n'). destruct (InsertImport n n a l) as [l' old]. cbn [fst find] in *. destruct (ncmp n' k) eqn:C'; [reflexivity | exact IHl |].
      destruct (find n' r); [reflexivity |]. destruct (list_eq_dec Z.eq_dec n' n) as [-> | D]; [congruence | reflexivity].
    + specialize (IHr n a n'). destruct (InsertImport n n a r) as [r' old]. cbn [fst find] in *. destruct (ncmp n' k) eqn:C'; [reflexivity | | exact IHr].
      destruct (find n' l); [reflexivity |]. destruct (list_eq_dec Z.eq_dec n' n) as [-> | D]; [congruence | reflexivity].
Qed.
Lemma insert_old : forall (A : Type) (t : tree A) n k a, snd (InsertImport n k a t) = find n t.
Proof.
  induction t as [| k b l IHl r IHr]; intros n k' a; cbn [InsertImport find]; [reflexivity |].
  destruct (ncmp n k); [reflexivity | specialize (IHl n k' a); destruct (InsertImport n k' a l); exact IHl | specialize (IHr n k' a); destruct (InsertImport n k' a r); exact IHr].
Qed.
Lemma find_insert_anon : forall (A : Type) (t : tree A) n a n', n' <> [] -> find n' (fst (InsertImport n [] a t)) = find n' t.
Proof.
  induction t as [| k b l IHl r IHr]; intros n a n' N; cbn [InsertImport].
  - cbn [fst find]. destruct n' as [| c n']; [contradiction | reflexivity].
  - specialize (IHl n a n' N). specialize (IHr n a n' N). destruct (ncmp n k); [reflexivity | destruct (InsertImport n [] a l) | destruct (InsertImport n [] a r)]; cbn [fst find] in *; destruct (ncmp n' k); auto.
Qed.
Lemma find_set_vis : forall t n n', find n' (set_vis n t) = match find n' t with Some o => if list_eq_dec Z.eq_dec n' n then Some (mkobj External (okind o)) else Some o | None => None end.
Proof.
  induction t as [| k b l IHl r IHr]; intros n n'; cbn [set_vis find]; [reflexivity |].
  destruct (ncmp n k) eqn:C.
  - cbn [find]. destruct (ncmp n' k) eqn:C'.
    + apply ncmp_eq in C. apply ncmp_eq in C'. subst. destruct (list_eq_dec Z.eq_dec k k); [reflexivity | contradiction].
    + destruct (find n' l); [destruct (list_eq_dec Z.eq_dec n' n); [congruence | reflexivity] | reflexivity].
    + destruct (find n' r); [destruct (list_eq_dec Z.eq_dec n' n); [congruence | reflexivity] | reflexivity].
  - cbn [find]. destruct (ncmp n' k) eqn:C'.
    + destruct (list_eq_dec Z.eq_dec n' n); [congruence | reflexivity].
    + apply IHl.
    + destruct (find n' r); [destruct (list_eq_dec Z.eq_dec n' n); [congruence | reflexivity] | reflexivity].
  - cbn [find]. destruct (ncmp n' k) eqn:C'.
    + destruct (list_eq_dec Z.eq_dec n' n); [congruence | reflexivity].
    + destruct (find n' l); [destruct (list_eq_dec Z.eq_dec n' n); [congruence | reflexivity] | reflexivity].
    + apply IHr.
Qed.

(** The first of some named things. *)
Fixpoint first {A} (f : A -> name) (n : name) (l : list A) : option A :=
  match l with [] => None | a :: l => if list_eq_dec Z.eq_dec n (f a) then Some a else first f n l end.
Definition ins_all {A} (f : A -> name) (l : list A) (t : tree A) : tree A := fold_left (fun t a => fst (InsertImport (f a) (f a) a t)) l t.
Lemma find_ins_all : forall (A : Type) (f : A -> name) l t n, find n (ins_all f l t) = match find n t with Some a => Some a | None => first f n l end.
Proof.
  induction l as [| a l IH]; intros t n; cbn [ins_all fold_left first].
  - destruct (find n t); reflexivity.
  - change (fold_left _ l ?t') with (ins_all f l t'). rewrite IH, find_insert. destruct (find n t); [reflexivity |]. destruct (list_eq_dec Z.eq_dec n (f a)); reflexivity.
Qed.

(** Lists. *)
Lemma upd_nth_same : forall (A : Type) (l : list A) i v x, nth_error l i = Some x -> nth_error (upd_nth l i v) i = Some v.
Proof. induction l as [| y l IH]; intros [| i] v x H; cbn [nth_error upd_nth] in *; try discriminate; [reflexivity | apply (IH i v x H)]. Qed.
Lemma upd_nth_other : forall (A : Type) (l : list A) i j v, i <> j -> nth_error (upd_nth l i v) j = nth_error l j.
Proof. induction l as [| y l IH]; intros [| i] [| j] v H; cbn [nth_error upd_nth] in *; try reflexivity; try contradiction. apply IH. congruence. Qed.
Lemma upd_nth_length : forall (A : Type) (l : list A) i v, length (upd_nth l i v) = length l.
Proof. induction l as [| y l IH]; intros [| i] v; cbn [length upd_nth] in *; congruence. Qed.
Lemma upd_nth_twice : forall (A : Type) (l : list A) i v v', upd_nth (upd_nth l i v) i v' = upd_nth l i v'.
Proof. induction l as [| y l IH]; intros [| i] v v'; cbn [upd_nth]; congruence. Qed.

Lemma mod_index_ge : forall l n i m, mod_index n l i = Some m -> (i <= m)%nat.
Proof. induction l as [| [k t] l IH]; intros n i m H; cbn [mod_index] in H; [discriminate |]. destruct (list_eq_dec Z.eq_dec n k); [inversion H; lia | apply IH in H; lia]. Qed.
Lemma mod_index_nth : forall l n i m, mod_index n l i = Some m -> exists t, nth_error l (m - i) = Some (n, t).
Proof.
  induction l as [| [k t] l IH]; intros n i m H; cbn [mod_index] in H; [discriminate |].
  destruct (list_eq_dec Z.eq_dec n k) as [-> | D].
  - inversion H; subst. replace (m - m)%nat with 0%nat by lia. exists t. reflexivity.
  - pose proof (mod_index_ge _ _ _ _ H). destruct (IH _ _ _ H) as (t' & E). exists t'. replace (m - i)%nat with (S (m - S i)) by lia. exact E.
Qed.
Lemma mod_index_app : forall l l' n i m, mod_index n l i = Some m -> mod_index n (l ++ l') i = Some m.
Proof. induction l as [| [k t] l IH]; intros l' n i m H; cbn [mod_index app] in *; [discriminate |]. destruct (list_eq_dec Z.eq_dec n k); [exact H | apply IH, H]. Qed.
Lemma mod_index_none : forall l n i, mod_index n l i = None <-> ~ In n (map fst l).
Proof.
  induction l as [| [k t] l IH]; intros n i; cbn [mod_index map fst In]; [tauto |].
  destruct (list_eq_dec Z.eq_dec n k) as [-> | D]; [split; [discriminate | tauto] |]. rewrite IH. split; [intros H [K | K]; [congruence | tauto] | tauto].
Qed.
Lemma mod_index_app_none : forall l n i t, mod_index n l i = None -> mod_index n (l ++ [(n, t)]) i = Some (i + length l)%nat.
Proof.
  induction l as [| [k t'] l IH]; intros n i t H; cbn [mod_index app length] in *.
  - destruct (list_eq_dec Z.eq_dec n n); [f_equal; lia | contradiction].
  - destruct (list_eq_dec Z.eq_dec n k); [discriminate |]. rewrite (IH _ _ _ H). f_equal. lia.
Qed.
Lemma mod_index_app_other : forall l n n' i t, n <> n' -> mod_index n (l ++ [(n', t)]) i = mod_index n l i.
Proof. induction l as [| [k t'] l IH]; intros n n' i t H; cbn [mod_index app] in *; [destruct (list_eq_dec Z.eq_dec n n'); [contradiction | reflexivity] |]. destruct (list_eq_dec Z.eq_dec n k); [reflexivity | apply IH, H]. Qed.
Lemma mod_index_upd : forall l n i m k t t', nth_error l m = Some (k, t) -> mod_index n (upd_nth l m (k, t')) i = mod_index n l i.
Proof.
  induction l as [| [k0 t0] l IH]; intros n i [| m] k t t' H; cbn [nth_error mod_index upd_nth] in *; try discriminate.
  - inversion H; subst. reflexivity.
  - destruct (list_eq_dec Z.eq_dec n k0); [reflexivity | apply (IH _ _ _ _ _ _ H)].
Qed.
Lemma map_fst_upd : forall (l : list (name * tree obj)) m k t t', nth_error l m = Some (k, t) -> map fst (upd_nth l m (k, t')) = map fst l.
Proof. induction l as [| [k0 t0] l IH]; intros [| m] k t t' H; cbn [nth_error map upd_nth fst] in *; try discriminate; [inversion H; subst; reflexivity | f_equal; apply (IH _ _ _ _ H)]. Qed.
