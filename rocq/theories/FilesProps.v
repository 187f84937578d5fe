(** Property C20: a file seen through riders is a flat byte array.  [asteps] (FilesSpec) is the flat array; [run] is the
    model of Files.Mod with its four write-back buffers per file. *)
From Verif Require Import Base ArrZ FilesModel FilesSpec FilesProofs.

(** n riders opened at 0 on a file whose content is c ([Old]), or on a new empty file. *)
Definition opened (f : file) (n : nat) : state := open_riders f n.
Definition aopened (c : list Z) (n : nat) : astate := (c, repeat (mka 0 false 0) n).

Lemma opened_sim : forall f c n, Inv f c [] -> sim (opened f n) (aopened c n) /\ length (snd (opened f n)) = n.
Proof.
  intros f c n H. pose proof (open_riders_sim n f c [] H) as P. unfold opened. destruct (open_riders f n) as [g rs].
  destruct P as (ids & P1 & P2 & P3 & P4 & P5 & P6). split; auto.
  exists ids. cbn [fst snd]. split; auto.
Qed.
Lemma Inv_New : Inv New [] [].
Proof. apply Inv_init; auto. Qed.
Lemma Inv_Old : forall c, Inv (Old c) c [].
Proof. intro c. apply Inv_init; auto. discriminate. Qed.

(** C20.  Every history of operations on an existing file succeeds, and what it observes is allowed by the flat array. *)
Theorem C20_flat_file : forall c n os, Forall (op_ok n) os ->
  exists s' vs a', run (opened (Old c) n) os = Ok (s', vs) /\ asteps (aopened c n) os vs a'.
Proof.
  intros c n os H. destruct (opened_sim _ _ n (Inv_Old c)) as [S L].
  destruct (run_sim os _ _ S) as (s' & vs & a' & E & A & _). { rewrite L. auto. } eauto.
Qed.
Print Assumptions C20_flat_file.

(** The same for a file created with New. *)
Theorem C20_flat_new : forall n os, Forall (op_ok n) os ->
  exists s' vs a', run (opened New n) os = Ok (s', vs) /\ asteps (aopened [] n) os vs a'.
Proof.
  intros n os H. destruct (opened_sim _ _ n Inv_New) as [S L].
  destruct (run_sim os _ _ S) as (s' & vs & a' & E & A & _). { rewrite L. auto. } eauto.
Qed.
Print Assumptions C20_flat_new.

(** After a final Close the operating system's file holds exactly the flat array's content, and flen is its length. *)
Lemma run_app : forall os1 s os2 s1 v1, run s os1 = Ok (s1, v1) ->
  run s (os1 ++ os2) = (let* r := run s1 os2 in Ok (fst r, v1 ++ snd r)).
Proof.
  induction os1 as [|o os1 IH]; intros s os2 s1 v1 H.
  - cbn [run] in H. inversion H; subst. cbn [app]. destruct (run s1 os2) as [[? ?]| | |]; reflexivity.
  - cbn [run app] in *. destruct (step s o) as [[s' v]| | |]; cbn [bind] in *; try discriminate.
    destruct (run s' os1) as [[s3 v3]| | |] eqn:E; cbn [bind] in *; try discriminate. inversion H; subst.
    rewrite (IH s' os2 s1 v3 E). destruct (run s1 os2) as [[? ?]| | |]; reflexivity.
Qed.
Lemma close_disk : forall f c n os, Inv f c [] -> Forall (op_ok n) os ->
  exists s' vs a', run (opened f n) (os ++ [OClose]) = Ok (s', vs) /\ asteps (aopened c n) os (firstn (length os) vs) a' /\
    disk (fst s') = fst a' /\ flen (fst s') = zlen (fst a').
Proof.
  intros f c n os I H. destruct (opened_sim _ _ n I) as [S L].
  destruct (run_sim os _ _ S) as (s1 & vs & a1 & E & A & S1). { rewrite L. auto. }
  destruct (step_sim s1 a1 OClose S1) as (s2 & v & a2 & E2 & A2 & S2 & _ & D). { exact Logic.I. }
  rewrite (run_app _ _ _ _ _ E). cbn [run]. rewrite E2. cbn [bind].
  assert (Ea : a2 = a1) by (inversion A2; reflexivity). subst a2.
  assert (Lv : length vs = length os) by (clear - A; induction A; cbn [length]; auto).
  do 2 eexists. exists a1. split; [reflexivity|]. split.
  - rewrite firstn_app, <- Lv, firstn_all, Nat.sub_diag. cbn [firstn]. rewrite app_nil_r. auto.
  - split; [apply D; auto|]. destruct S2 as (ids & I2 & _). pose proof (I_len _ _ _ I2). auto.
Qed.
Theorem C20_close : forall c n os, Forall (op_ok n) os ->
  exists s' vs a', run (opened (Old c) n) (os ++ [OClose]) = Ok (s', vs) /\
    asteps (aopened c n) os (firstn (length os) vs) a' /\ disk (fst s') = fst a' /\ flen (fst s') = zlen (fst a').
Proof. intros. apply close_disk; auto. apply Inv_Old. Qed.
Print Assumptions C20_close.
Theorem C20_close_new : forall n os, Forall (op_ok n) os ->
  exists s' vs a', run (opened New n) (os ++ [OClose]) = Ok (s', vs) /\
    asteps (aopened [] n) os (firstn (length os) vs) a' /\ disk (fst s') = fst a' /\ flen (fst s') = zlen (fst a').
Proof. intros. apply close_disk; auto. apply Inv_New. Qed.
Print Assumptions C20_close_new.

(** The flat array leaves nothing open but the stale end-of-file and result flags: two allowed outcomes of the same
    history agree on the content, on all positions and on all values returned. *)
Definition same_pos (a b : astate) : Prop := fst a = fst b /\ map a_pos (snd a) = map a_pos (snd b).
Definition value (v : obs) : obs := match v with VByte x _ => VByte x false | _ => v end.
Lemma nth_pos : forall rs rs' i r r', map a_pos rs = map a_pos rs' -> nth_error rs i = Some r -> nth_error rs' i = Some r' ->
  a_pos r = a_pos r'.
Proof.
  intros rs rs' i r r' H A B. apply (map_nth_error a_pos) in A. apply (map_nth_error a_pos) in B. congruence.
Qed.
Lemma pos_set : forall rs rs' i r r', map a_pos rs = map a_pos rs' -> a_pos r = a_pos r' ->
  map a_pos (set_nth i r rs) = map a_pos (set_nth i r' rs').
Proof. intros. rewrite !map_set_nth. congruence. Qed.
Lemma astep_det : forall a b o v w a' b', same_pos a b -> astep a o v a' -> astep b o w b' -> value v = value w /\ same_pos a' b'.
Proof.
  intros [c rs] [c' rs'] o v w a' b' [Hc Hp] A B. cbn [fst snd] in *. subst c'.
  assert (NP := fun i r r' => nth_pos rs rs' i r r' Hp).
  inversion A; subst; inversion B; subst;
    repeat match goal with H1 : nth_error rs ?i = Some ?r, H2 : nth_error rs' ?i = Some ?r' |- _ =>
      let E := fresh "E" in pose proof (NP _ _ _ H1 H2) as E; clear H2 end;
    try lia; unfold same_pos; cbn [fst snd value];
    (split; [try reflexivity; congruence|]); (split; [try reflexivity; try congruence|]);
    try assumption; try (apply pos_set; auto; cbn [a_pos]; congruence).
Qed.
Theorem C20_unique : forall os a vs ws a' b', asteps a os vs a' -> asteps a os ws b' ->
  map value vs = map value ws /\ same_pos a' b'.
Proof.
  intros os a vs ws a' b' A B. assert (G : forall os a b vs ws a' b', same_pos a b -> asteps a os vs a' -> asteps b os ws b' ->
    map value vs = map value ws /\ same_pos a' b').
  { clear. induction os as [|o os IH]; intros a b vs ws a' b' S A B; inversion A; subst; inversion B; subst; auto.
    match goal with A1 : astep a o _ ?x, A2 : asteps ?x os _ _, B1 : astep b o _ ?y, B2 : asteps ?y os _ _ |- _ =>
      destruct (astep_det _ _ _ _ _ _ _ S A1 B1) as [E S1]; destruct (IH _ _ _ _ _ _ S1 A2 B2) as [E2 S2] end.
    split; auto. cbn [map]. congruence. }
  apply (G os a a vs ws a' b'); auto. split; auto.
Qed.
Print Assumptions C20_unique.

(** Non-vacuity: two riders, a write across the end and a read back by the other rider. *)
Example C20_nonvacuous :
  Forall (op_ok 2) [OWriteBytes 0 [1; 2; 3] 3; OSet 1 1; OWrite 1 9; OSet 0 0; OReadBytes 0 5 5; OLength; OClose] /\
  match run (opened (Old [7]) 2) [OWriteBytes 0 [1; 2; 3] 3; OSet 1 1; OWrite 1 9; OSet 0 0; OReadBytes 0 5 5; OLength; OClose] with
  | Ok (s, vs) => vs = [VUnit; VUnit; VUnit; VUnit; VBytes [1; 9; 3] true 2; VInt 3; VUnit] /\ disk (fst s) = [1; 9; 3]
  | _ => False
  end.
Proof. split; [|vm_compute; auto]. repeat constructor; cbn; lia. Qed.

(** The claim "eof is FALSE after a Read that delivered a byte" is false: eof set by an earlier Read at the end stays
    set when another rider has appended meanwhile. *)
Theorem C20_eof_after_read_refuted : exists c n os s vs,
  Forall (op_ok n) os /\ run (opened (Old c) n) os = Ok (s, vs) /\ last vs VUnit = VByte 5 true.
Proof.
  exists [], 2%nat, [ORead 0; OWrite 1 5; ORead 0].
  set (r := run (opened (Old []) 2) [ORead 0; OWrite 1 5; ORead 0]).
  assert (V : match r with Ok (_, vs) => last vs VUnit = VByte 5 true | _ => False end) by (vm_compute; reflexivity).
  clearbody r. destruct r as [[s vs]| | |]; try contradiction.
  exists s, vs. split; [repeat constructor; cbn; lia|]. auto.
Qed.
Print Assumptions C20_eof_after_read_refuted.
