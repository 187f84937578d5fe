(** C80: declarations of types. *)
From Verif Require Import Base DeclModel DeclSpec DeclProofs DeclMeaning.
Open Scope nat_scope.

(** Before a block: the two predeclared structures, well-formed types, no pointer waiting, no error. *)
Definition good_start (st : state) : Prop :=
  nth_error (heap st) 0 = Some SUndef /\ nth_error (heap st) 1 = Some SBasic /\ well_formed (heap st) /\
  good_names (heap st) (loc st) /\ good_names (heap st) (out st) /\ fwd st = [] /\ errs st = [].

Lemma names_ctx : forall h env, good_names h env -> names h env (ctx_of h env).
Proof.
  intros h env G n. specialize (G n). unfold ctx_of. induction env as [|[m x] env IH]; [exact I|]. cbn [map fst snd assoc] in *. destruct (m =? n)%Z; [|apply IH; exact G].
  destruct x as [s|]; [|exact I]. destruct (G s eq_refl) as [G1 G2]. unfold is_type in G1. destruct (kind_at h s); [|congruence]. auto.
Qed.
Lemma start_J : forall st, good_start st -> J st (ctx_of (heap st) (loc st)) (ctx_of (heap st) (out st)) [].
Proof.
  intros st (H0 & H1 & W & G1 & G2 & F & _). constructor; auto using names_ctx.
  - intros x s E N. destruct (W x s E N). auto.
  - rewrite F. intros x n d [].
  - rewrite F. constructor.
  - rewrite F. intro n. split; [intros []|intros [x []]].
Qed.

(** A block is accepted exactly when it follows the rules. *)
Theorem C80_exact : forall ds st, good_start st ->
  errs (block ds st) = [] <-> legal (ctx_of (heap st) (out st)) (ctx_of (heap st) (loc st)) [] 0 ds.
Proof.
  intros ds st G. pose proof (start_J st G) as HJ. destruct G as (_ & _ & _ & _ & _ & F & E). destruct (block_ok ds st _ _ _ HJ) as [A B].
  rewrite F, E in *. cbn [length] in *. split; [apply A|apply B].
Qed.
(** After an accepted block every type is finite and of the right shape, also what the names of the block mean. *)
Theorem C80_finite : forall ds st, good_start st -> errs (block ds st) = [] ->
  well_formed (heap (block ds st)) /\ good_names (heap (block ds st)) (loc (block ds st)) /\ good_names (heap (block ds st)) (out (block ds st)).
Proof.
  intros ds st G E0. pose proof (start_J st G) as HJ. destruct G as (_ & _ & _ & _ & _ & F & E). destruct (block_ok ds st _ _ _ HJ) as [A _].
  rewrite E in A. destruct (A E0) as [_ [l' HJ']]. destruct HJ' as [a0 a1 a2 a3 a3o a4 a5 a6]. split; [|split].
  - intros x s Ex N. destruct (a2 x s Ex N) as [F1 [F2|[_ [n Q]]]]; [auto|]. exfalso. apply (proj2 (a6 n)). eauto.
  - intros n s Q. specialize (a3 n). rewrite Q in a3. destruct (assoc l' n) as [[k|]|]; try tauto. destruct a3 as [Q1 Q2]. split; auto. unfold is_type. congruence.
  - intros n s Q. specialize (a3o n). rewrite Q in a3o. destruct (assoc (ctx_of (heap st) (out st)) n) as [[k|]|]; try tauto. destruct a3o as [Q1 Q2]. split; auto. unfold is_type. congruence.
Qed.
(** In an accepted block every declared type denotes what its declaration says, in terms of the names visible there; a pointer to a name
    that is not yet visible points to what the block declares under that name later. *)
Theorem C80_meaning : forall before n t after st, good_start st ->
  let final := block (before ++ DType n t :: after) st in
  let mid := fold_left (fun st d => declare d st) before st in
  errs final = [] ->
  exists s, assoc (loc final) n = Some (OTyp s) /\
    denotes (heap final) (length (heap mid))
      (fun m => if (n =? m)%Z then Some (OTyp s) else match lookup mid m with Some o => Some o | None => assoc (loc final) m end) t s.
Proof.
  intros before n t after st G final mid E0. pose proof (start_J st G) as HJ. destruct G as (_ & _ & _ & _ & _ & F & E).
  apply (block_meaning before n t after st _ _ _ HJ). fold final. rewrite E. exact E0.
Qed.

(** A list node (names 1 = Node, 2 = NodeDesc, 3 = Tree, 100 = INTEGER): the pointer comes first, the record contains it. *)
Definition start : state := mkst [SUndef; SBasic] [] [(100%Z, OTyp 1)] [] [].
Example start_good : good_start start.
Proof.
  assert (well_formed (heap start)) as W.
  { intros [|[|x]] s E N; cbn in E; try (injection E as <-); try congruence; [|destruct x; discriminate E].
    split; [|exact I]. apply finite_intro with (s := SBasic); [reflexivity|discriminate|intros y []]. }
  split; [reflexivity|]. split; [reflexivity|]. split; [exact W|]. split; [intros n s H; discriminate H|]. split; [|split; reflexivity].
  intros n s H. unfold start in H. cbn [out assoc] in H. destruct (100 =? n)%Z; [|discriminate H]. injection H as <-. split; discriminate.
Qed.
Definition node : list item :=
  [DType 1%Z (TPtr (TName 2%Z)); DType 2%Z (TRec None [TName 1%Z; TArr (TName 100%Z); TProc [TName 1%Z; TDyn (TName 100%Z)] (Some 100%Z)]);
   DType 3%Z (TPtr (TRec (Some 2%Z) [TArr (TName 3%Z)])); DVar [4%Z; 5%Z] (TRec None [TName 2%Z; TName 3%Z])].
Example node_accepted : errs (block node start) = [] /\
  heap (block node start) = [SUndef; SBasic; SPtr 3 true; SRec None [2; 4; 5]; SArr 1; SProc [2; 6] 1; SDyn 1; SPtr 8 true; SRec (Some 3) [9]; SArr 7; SRec None [3; 7]] /\
  loc (block node start) = [(5%Z, OOther); (4%Z, OOther); (3%Z, OTyp 7); (2%Z, OTyp 3); (1%Z, OTyp 2)].
Proof. vm_compute. auto. Qed.
(** A record that contains itself, directly, in an array, or as its base; an open array as a field; a pointer to a number; a pointer to a
    name never declared; an anonymous pointer to an undeclared name. *)
Example rejected :
  errs (block [DType 1%Z (TRec None [TName 1%Z])] start) = [58%Z] /\ errs (block [DType 1%Z (TRec None [TArr (TName 1%Z)])] start) = [58%Z] /\
  errs (block [DType 1%Z (TRec (Some 1%Z) [])] start) = [58%Z] /\ errs (block [DType 1%Z (TRec None [TDyn (TName 100%Z)])] start) = [88%Z] /\
  errs (block [DType 1%Z (TPtr (TName 100%Z))] start) = [57%Z] /\ errs (block [DType 1%Z (TPtr (TName 2%Z))] start) = [128%Z] /\
  errs (block [DVar [1%Z] (TPtr (TName 2%Z))] start) = [128%Z; 0%Z].
Proof. vm_compute. auto 10. Qed.

Print Assumptions C80_exact.
Print Assumptions C80_finite.
Print Assumptions C80_meaning.
