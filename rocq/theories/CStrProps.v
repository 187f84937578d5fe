(** Properties C06 and C07: string comparison and COPY in the generated C. *)
From Verif Require Import Base CStrModel CStrSpec CStrProofs.

(** Each relation emitted for two terminated character arrays is the corresponding relation of the lexicographic
    order on their strings; in particular it does not depend on what follows the terminators. *)
Theorem C06_string_relations : forall a b, bytes a -> bytes b -> terminated a -> terminated b ->
  exists eq ne lt le gt ge,
    str_rel REq a b = Ok eq /\ str_rel RNeq a b = Ok ne /\ str_rel RLt a b = Ok lt /\
    str_rel RLe a b = Ok le /\ str_rel RGt a b = Ok gt /\ str_rel RGe a b = Ok ge /\
    (eq = true <-> str_of a = str_of b) /\ (ne = true <-> str_of a <> str_of b) /\
    (lt = true <-> lex_lt (str_of a) (str_of b)) /\ (le = true <-> lex_lt (str_of a) (str_of b) \/ str_of a = str_of b) /\
    (gt = true <-> lex_lt (str_of b) (str_of a)) /\ (ge = true <-> lex_lt (str_of b) (str_of a) \/ str_of a = str_of b).
Proof.
  intros a b Ba Bb Ta Tb. destruct (str_cmp_spec a b Ba Bb Ta Tb) as (v & Hv & H1 & H2 & H3).
  unfold str_rel. rewrite Hv. cbn [bind zrel].
  do 6 eexists. do 6 (split; [reflexivity|]).
  rewrite <- H1, <- H2, <- H3. refine (conj _ (conj _ (conj _ (conj _ (conj _ _))))); split; intro H; lia.
Qed.
Print Assumptions C06_string_relations.

(** The order used is a strict total order. *)
Theorem C06_total_order :
  (forall s, ~ lex_lt s s) /\ (forall s t u, lex_lt s t -> lex_lt t u -> lex_lt s u) /\
  (forall s t, lex_lt s t \/ s = t \/ lex_lt t s).
Proof. exact (conj lex_irrefl (conj lex_trans lex_total)). Qed.
Print Assumptions C06_total_order.
Example C06_nonvacuous : str_rel RLt [97; 98; 0; 7] [97; 98; 99; 0] = Ok true /\ str_rel REq [97; 0; 1] [97; 0; 2] = Ok true.
Proof. split; reflexivity. Qed.

(** COPY never fails, keeps the length of the destination, leaves the longest fitting prefix, terminated, and does not
    touch the elements behind the terminator.  Precondition: the source is terminated or at least as long as needed. *)
Theorem C07_copy : forall s d, (terminated s \/ (length d <= S (length s))%nat) -> (1 <= length d)%nat ->
  exists k d', COPY s d = Ok d' /\ length d' = length d /\ terminated d' /\
    str_of d' = firstn k (str_of s) /\
    (k = length (str_of s) /\ (k <= length d - 1)%nat \/ k = (length d - 1)%nat /\ (k <= length (str_of s))%nat) /\
    skipn (S k) d' = skipn (S k) d.
Proof.
  intros s d Hf Hd. set (k := Nat.min (length (str_of s)) (length d - 1)).
  exists k. eexists. split; [apply COPY_spec; auto|]. fold k.
  assert (Lk : length (firstn k (str_of s)) = k) by (rewrite firstn_length; unfold k; lia).
  repeat split.
  - rewrite app_length, Lk. cbn [length]. rewrite skipn_length. unfold k. lia.
  - apply in_or_app. right. left. reflexivity.
  - apply str_of_app0. intro H.
    assert (In 0 (str_of s)).
    { rewrite <- (firstn_skipn k (str_of s)). apply in_or_app. now left. }
    eapply str_of_no0; eauto.
  - unfold k. lia.
  - rewrite skipn_app, Lk, skipn_all2 by (rewrite Lk; lia).
    replace (S k - k)%nat with 1%nat by lia. reflexivity.
Qed.
Print Assumptions C07_copy.
Example C07_nonvacuous : COPY [97; 98; 99; 100; 0] [1; 2; 3] = Ok [97; 98; 0] /\ COPY [97; 0; 5] [1; 2; 3; 4] = Ok [97; 0; 3; 4].
Proof. split; reflexivity. Qed.
