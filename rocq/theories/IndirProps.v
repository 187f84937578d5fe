(** C102: disciplines. *)
From Verif Require Import Base IndirModel IndirSpec.
Lemma bok : forall A B (a : A) (k : A -> res B), bind (Ok a) k = k a. Proof. reflexivity. Qed.
Lemma seek_remove : forall l id i, NoDup (List.map fst l) -> Seek (Remove l id) i = if i =? id then None else Seek l i.
Proof.
  assert (NI : forall l i, ~ In i (List.map fst l) -> Seek l i = None).
  { induction l as [|[j b] l IH]; intros i H; [reflexivity|]. cbn in *. destruct (j =? i) eqn:E; [apply Z.eqb_eq in E; tauto|]. cbn. apply IH. tauto. }
  induction l as [|[j b] l IH]; intros id i N; cbn [Remove Seek]; [destruct (i =? id); reflexivity|]. inversion N as [|? ? N1 N2]; subst. cbn [fst] in N1. destruct (j =? id) eqn:E; cbn [negb].
  - apply Z.eqb_eq in E. subst j. rewrite (Z.eqb_sym id i). destruct (i =? id) eqn:F; cbn [negb]; [|reflexivity]. apply Z.eqb_eq in F. subst i. apply NI, N1.
  - cbn [Seek]. rewrite (IH id i N2). destruct (j =? i) eqn:F; cbn [negb]; [|reflexivity]. apply Z.eqb_eq in F. subst j. rewrite E. reflexivity.
Qed.
Lemma remove_nodup : forall l id, NoDup (List.map fst l) -> NoDup (List.map fst (Remove l id)) /\ forall i, In i (List.map fst (Remove l id)) -> In i (List.map fst l).
Proof.
  induction l as [|[j b] l IH]; intros id N; cbn [Remove]; [auto|]. inversion N as [|? ? N1 N2]; subst. destruct (IH id N2) as [A B]. destruct (j =? id); cbn; [auto|]. split; [constructor; [intros Q; apply N1, B, Q|exact A]|]. intros i [->|Q]; auto.
Qed.
Lemma replace_spec : forall l id b, match replace_disc l id b with
  | Some l' => List.map fst l' = List.map fst l /\ forall i, Seek l' i = if i =? id then Some b else Seek l i
  | None => ~ In id (List.map fst l) end.
Proof.
  induction l as [|[j c] l IH]; intros id b; cbn [replace_disc]; [intros []|]. destruct (j =? id) eqn:E; cbn [negb].
  - apply Z.eqb_eq in E. subst j. split; [reflexivity|]. intros i. cbn. rewrite (Z.eqb_sym id i). destruct (i =? id); reflexivity.
  - specialize (IH id b). destruct (replace_disc l id b) as [l'|].
    + destruct IH as [A B]. split; [cbn; rewrite A; reflexivity|]. intros i. cbn [Seek]. rewrite B. destruct (j =? i) eqn:F; cbn [negb]; [|reflexivity]. apply Z.eqb_eq in F. subst j. rewrite E. reflexivity.
    + cbn. apply Z.eqb_neq in E. tauto.
Qed.
Lemma seek_add : forall l id b i, Seek (Add l id b) i = if i =? id then Some b else Seek l i.
Proof. intros l id b i. unfold Add. pose proof (replace_spec l id b) as H. destruct (replace_disc l id b) as [l'|]; [apply H|]. cbn. rewrite (Z.eqb_sym id i). destruct (i =? id); reflexivity. Qed.
Lemma add_nodup : forall l id b, NoDup (List.map fst l) -> NoDup (List.map fst (Add l id b)).
Proof. intros l id b N. unfold Add. pose proof (replace_spec l id b) as H. destruct (replace_disc l id b) as [l'|]; [rewrite (proj1 H); exact N|]. cbn. constructor; assumption. Qed.

Section ind.
Variable me : Z.
(** The calls behind the actions. *)
Definition step (f : nat) (h : heap) (o : op body) : res heap :=
  match o with
  | ADD _ o id b => Ok (upd h o (Add (h o) id b))
  | REMOVE _ o id => Ok (upd h o (Remove (h o) id))
  | FORWARD _ o t => Ok (Forward me h o t)
  | ADD_VIA _ o id b => AddI me f h o id b
  | REMOVE_VIA _ o id => RemoveI me f h o id
  end.
Fixpoint run (f : nat) (h : heap) (l : list (op body)) : res heap := match l with [] => Ok h | o :: l => let* h := step f h o in run f h l end.
Definition clean (h : heap) : Prop := forall o, NoDup (List.map fst (h o)).
Definition sees (h : heap) : map body := fun o id => Seek (h o) id.
Lemma put_add : forall h o id b, put body (sees h) o id (Some b) (sees (upd h o (Add (h o) id b))).
Proof. intros h o id b p i. unfold sees, upd. destruct (p =? o)%nat eqn:E; [apply Nat.eqb_eq in E; subst p; cbn [andb]; apply seek_add|reflexivity]. Qed.
Lemma put_remove : forall h o id, clean h -> put body (sees h) o id None (sees (upd h o (Remove (h o) id))).
Proof. intros h o id C p i. unfold sees, upd. destruct (p =? o)%nat eqn:E; [apply Nat.eqb_eq in E; subst p; cbn [andb]; apply seek_remove, C|reflexivity]. Qed.
Lemma clean_upd : forall h o l, clean h -> NoDup (List.map fst l) -> clean (upd h o l).
Proof. intros h o l C N q. unfold upd. destruct (q =? o)%nat; [exact N|apply C]. Qed.
Lemma addi_last : forall f h o id b h', AddI me f h o id b = Ok h' -> exists e, last body Fwd me (sees h) o e /\ h' = upd h e (Add (h e) id b) /\ Seek (h e) me = None.
Proof.
  induction f as [|f IH]; intros h o id b h' E; [discriminate|]. cbn [AddI] in E. destruct (Seek (h o) me) as [d|] eqn:S.
  - destruct d as [x|t]; cbn [forwardTo] in E; [discriminate|]. rewrite bok in E. destruct (IH h t id b h' E) as (e & L & X & Y). exists e. split; [|auto]. apply last_next with t; [exact S|exact L].
  - injection E as <-. exists o. split; [apply last_here; exact S|auto].
Qed.
Lemma seeki_finds : forall f h o id r, SeekI me f h o id = Ok r -> exists x, finds body Fwd me (sees h) id o x /\ r = match x with Some (_, b) => Some b | None => None end.
Proof.
  induction f as [|f IH]; intros h o id r E; [discriminate|]. cbn [SeekI] in E. destruct (Seek (h o) id) as [b|] eqn:S; [injection E as <-; exists (Some (o, b)); split; [apply finds_here; exact S|reflexivity]|].
  destruct (Seek (h o) me) as [d|] eqn:S2; [|injection E as <-; exists None; split; [apply finds_none; assumption|reflexivity]]. destruct d as [x|t]; cbn [forwardTo] in E; [discriminate|]. rewrite bok in E. destruct (IH h t id r E) as (x & F & X). exists x. split; [apply finds_next with t; assumption|exact X].
Qed.
Lemma removei_finds : forall f h o id h', RemoveI me f h o id = Ok h' -> exists x, finds body Fwd me (sees h) id o x /\ h' = match x with Some (e, _) => upd h e (Remove (h e) id) | None => h end.
Proof.
  induction f as [|f IH]; intros h o id r E; [discriminate|]. cbn [RemoveI] in E. destruct (Seek (h o) id) as [b|] eqn:S; [injection E as <-; exists (Some (o, b)); split; [apply finds_here; exact S|reflexivity]|].
  destruct (Seek (h o) me) as [d|] eqn:S2; [|injection E as <-; exists None; split; [apply finds_none; assumption|reflexivity]]. destruct d as [x|t]; cbn [forwardTo] in E; [discriminate|]. rewrite bok in E. destruct (IH h t id r E) as (x & F & X). exists x. split; [apply finds_next with t; assumption|exact X].
Qed.
Lemma step_does : forall f h o h', clean h -> step f h o = Ok h' -> clean h' /\ does body Fwd me (sees h) o (sees h').
Proof.
  intros f h o h' C E. destruct o as [o id b|o id|o t|o id b|o id]; cbn [step] in E.
  - injection E as <-. split; [apply clean_upd; [exact C|apply add_nodup, C]|constructor; apply put_add].
  - injection E as <-. split; [apply clean_upd; [exact C|apply remove_nodup, C]|constructor; apply put_remove, C].
  - injection E as <-. unfold Forward. destruct t as [t|]; (split; [apply clean_upd; [exact C|first [apply add_nodup, C | apply remove_nodup, C]]|constructor]); [apply put_add|apply put_remove, C].
  - destruct (addi_last _ _ _ _ _ _ E) as (e & L & -> & _). split; [apply clean_upd; [exact C|apply add_nodup, C]|]. apply does_add_via with e; [exact L|apply put_add].
  - destruct (removei_finds _ _ _ _ _ E) as ([[e b]|] & F & ->).
    + split; [apply clean_upd; [exact C|apply remove_nodup, C]|]. apply does_remove_via with e b; [exact F|apply put_remove, C].
    + split; [exact C|]. apply does_remove_none. exact F.
Qed.
Lemma run_app : forall f l m h, run f h (l ++ m) = let* h := run f h l in run f h m.
Proof. induction l as [|o l IH]; intros m h; [reflexivity|]. cbn [app run]. destruct (step f h o) as [h1| | |]; cbn [bind]; auto. Qed.
Lemma run_history : forall f l h, run f (fun _ => []) l = Ok h -> clean h /\ exists M, history body Fwd me l M /\ forall o id, sees h o id = M o id.
Proof.
  intros f l. induction l as [|o l IH] using rev_ind; intros h E.
  - cbn in E. injection E as <-. split; [intros q; constructor|]. exists (fun _ _ => None). split; [constructor|reflexivity].
  - rewrite run_app in E. destruct (run f (fun _ => []) l) as [h1| | |] eqn:E1; try discriminate. rewrite bok in E. cbn [run] in E. destruct (step f h1 o) as [h2| | |] eqn:E2; try discriminate. rewrite bok in E. injection E as ->.
    destruct (IH h1 eq_refl) as (C & M & H & S). destruct (step_does f h1 o h C E2) as [C' DO]. split; [exact C'|].
    (* the step from [sees h1] is a step from the map M that has the same values *)
    assert (PL : forall a e, last body Fwd me (sees h1) a e -> last body Fwd me M a e).
    { intros a e L. induction L as [a Q|a t e Q L IL]; rewrite S in Q; [apply last_here; exact Q|apply last_next with t; assumption]. }
    assert (PF : forall id a x, finds body Fwd me (sees h1) id a x -> finds body Fwd me M id a x).
    { intros id a x L. induction L as [a b Q|a t x Q Q2 L IL|a Q Q2]; rewrite S in Q; try rewrite S in Q2; [apply finds_here; exact Q|apply finds_next with t; assumption|apply finds_none; assumption]. }
    assert (PP : forall a id x N, put body (sees h1) a id x N -> put body M a id x N) by (intros a id x N Q p i; rewrite (Q p i), S; reflexivity).
    inversion DO as [a id b M' P EO EM|a id M' P EO EM|a t M' P EO EM|a id b e M' L P EO EM|a id e b M' F P EO EM|a id F EO EM]; subst.
    6:{ exists M. split; [|intros p i; rewrite <- (S p i); first [rewrite EM; reflexivity|rewrite <- EM; reflexivity]]. apply history_step with M; [exact H|apply does_remove_none, PF, F]. }
    all: exists (sees h); split; [|reflexivity]; apply history_step with M; [exact H|].
    + constructor. apply PP, P. + constructor. apply PP, P. + constructor. apply PP, P. + apply does_add_via with e; [apply PL, L|apply PP, P]. + apply does_remove_via with e b; [apply PF, F|apply PP, P].
Qed.
End ind.

(** After every history of calls that return, each object has under each identifier what the map says. *)
Theorem C102_map : forall me f l h, run me f (fun _ => []) l = Ok h -> exists M, history body Fwd me l M /\ forall o id, Seek (h o) id = M o id.
Proof. intros me f l h E. destruct (run_history me f l h E) as (_ & M & H & S). exists M. split; [exact H|exact S]. Qed.
(** A search through the forwards that returns gives what the first object on the way has. *)
Theorem C102_seek : forall me f h o id r, SeekI me f h o id = Ok r -> exists x, finds body Fwd me (fun o id => Seek (h o) id) id o x /\ r = match x with Some (_, b) => Some b | None => None end.
Proof. intros me f h o id r E. exact (seeki_finds me f h o id r E). Qed.
(** If the forwards end, everything returns. *)
Theorem C102_returns_partial : forall me h o e, last body Fwd me (fun o id => Seek (h o) id) o e -> exists n, forall f id b, (n <= f)%nat ->
  (exists r, SeekI me f h o id = Ok r) /\ (exists h', AddI me f h o id b = Ok h') /\ (exists h', RemoveI me f h o id = Ok h').
Proof.
  intros me h o e L. induction L as [o Q|o t e Q L (n & IH)]; cbn in Q.
  - exists 1%nat. intros [|f] id b G; [lia|]. cbn [SeekI AddI RemoveI]. rewrite Q. destruct (Seek (h o) id); (split; [|split]); eexists; reflexivity.
  - exists (S n). intros [|f] id b G; [lia|]. destruct (IH f id b ltac:(lia)) as (A & B & C). cbn [SeekI AddI RemoveI]. rewrite Q. cbn [forwardTo bind]. destruct (Seek (h o) id); (split; [|split]); eauto.
Qed.
(** What is added through the forwards is found through the forwards, if nothing was found before. *)
Theorem C102_add_partial : forall me f h o id b h', id <> me -> finds body Fwd me (fun o id => Seek (h o) id) id o None -> AddI me f h o id b = Ok h' -> exists n, SeekI me n h' o id = Ok (Some b).
Proof.
  intros me f h o id b h' NE F. remember None as x eqn:EX. revert f. induction F as [o c Q|o t r Q1 Q2 F IH|o Q1 Q2]; intros f E; [discriminate| |]; cbn in Q1, Q2.
  - destruct f as [|f]; [discriminate|]. cbn [AddI] in E. rewrite Q2 in E. cbn [forwardTo bind] in E. destruct (IH EX f E) as (n & N). exists (S n). destruct (addi_last me f h t id b h' E) as (e & _ & X & Y).
    assert (SO : h' o = h o) by (rewrite X; unfold upd; destruct (o =? e)%nat eqn:Z; [apply Nat.eqb_eq in Z; subst e; congruence|reflexivity]). cbn [SeekI]. rewrite SO, Q1, Q2. exact N.
  - destruct f as [|f]; [discriminate|]. cbn [AddI] in E. rewrite Q2 in E. injection E as <-. exists 1%nat. cbn [SeekI]. unfold upd. rewrite Nat.eqb_refl, seek_add, Z.eqb_refl. reflexivity.
Qed.
(** The n-th call of Unique gives n, until the numbers are used up; then the result is undefined. *)
Fixpoint uniques (n : nat) (u : Z) : res Z := match n with O => Ok u | S n => let* u := Unique u in uniques n u end.
Theorem C102_unique : forall n, uniques n 0 = if Z.of_nat n <? 2 ^ 31 then Ok (Z.of_nat n) else UB.
Proof.
  assert (H : forall n u, 0 <= u < 2 ^ 31 -> uniques n u = if u + Z.of_nat n <? 2 ^ 31 then Ok (u + Z.of_nat n) else UB).
  { induction n as [|n IH]; intros u R; cbn [uniques].
    - replace (u + Z.of_nat 0) with u by lia. replace (u <? 2 ^ 31) with true by lia. reflexivity.
    - unfold Unique, chk, in_intb. change (32 - 1) with 31. destruct (Z.ltb_spec (u + 1) (2 ^ 31)) as [C|C].
      + replace (- 2 ^ 31 <=? u + 1) with true by lia. cbn [andb bind]. rewrite IH by lia. replace (u + 1 + Z.of_nat n) with (u + Z.of_nat (S n)) by lia. reflexivity.
      + rewrite andb_false_r. cbn [bind]. replace (u + Z.of_nat (S n) <? 2 ^ 31) with false by lia. reflexivity. }
  intros n. rewrite H by lia. reflexivity.
Qed.
(** Add "deletes a discipline with the same identifier first": not if an object on the way has it, then the old one is found for ever. *)
Theorem C102_add_refuted : exists h h', run 1 9 (fun _ => []) [ADD body 0 5 (Plain 1); FORWARD body 0 (Some 1%nat)] = Ok h /\ AddI 1 9 h 0 5 (Plain 2) = Ok h' /\ SeekI 1 9 h' 0 5 = Ok (Some (Plain 1)).
Proof. eexists. eexists. split; [reflexivity|]. split; [reflexivity|]. vm_compute. reflexivity. Qed.
(** Remove through the forwards may uncover another discipline with this identifier. *)
Theorem C102_remove_refuted : exists h h', run 1 9 (fun _ => []) [ADD body 0 5 (Plain 1); ADD body 1 5 (Plain 2); FORWARD body 0 (Some 1%nat)] = Ok h /\ RemoveI 1 9 h 0 5 = Ok h' /\ SeekI 1 9 h' 0 5 = Ok (Some (Plain 2)).
Proof. eexists. eexists. split; [reflexivity|]. split; [reflexivity|]. vm_compute. reflexivity. Qed.
(** Forwards in a circle are accepted; a search then never returns. *)
Theorem C102_cycle_refuted : exists h, run 1 9 (fun _ => []) [FORWARD body 0 (Some 1%nat); FORWARD body 1 (Some 0%nat)] = Ok h /\ forall n, SeekI 1 n h 0 5 = Fuel /\ AddI 1 n h 0 5 (Plain 2) = Fuel /\ RemoveI 1 n h 0 5 = Fuel.
Proof.
  eexists. split; [reflexivity|]. set (h := Forward _ _ _ _). assert (H0 : Seek (h 0%nat) 5 = None /\ Seek (h 0%nat) 1 = Some (Fwd 1)) by (vm_compute; auto). assert (H1 : Seek (h 1%nat) 5 = None /\ Seek (h 1%nat) 1 = Some (Fwd 0)) by (vm_compute; auto). clearbody h. destruct H0 as [A0 B0], H1 as [A1 B1].
  assert (X : forall n, (SeekI 1 n h 0 5 = Fuel /\ AddI 1 n h 0 5 (Plain 2) = Fuel /\ RemoveI 1 n h 0 5 = Fuel) /\ (SeekI 1 n h 1 5 = Fuel /\ AddI 1 n h 1 5 (Plain 2) = Fuel /\ RemoveI 1 n h 1 5 = Fuel)).
  { induction n as [|n (IH0 & IH1)]; [repeat split|]. cbn [SeekI AddI RemoveI]. rewrite A0, A1, B0, B1. cbn [forwardTo bind]. auto. }
  intros n. apply X.
Qed.
(** The hypotheses are met by a chain of three objects. *)
Definition chain3 := [FORWARD body 0 (Some 1%nat); FORWARD body 1 (Some 2%nat); ADD body 2 7 (Plain 70); ADD_VIA body 0 8 (Plain 80); ADD body 1 8 (Plain 81); REMOVE_VIA body 0 7; FORWARD body 5 (Some 0%nat); FORWARD body 5 None].
Example C102_chain : exists h, run 1 9 (fun _ => []) chain3 = Ok h /\ SeekI 1 9 h 0 8 = Ok (Some (Plain 81)) /\ SeekI 1 9 h 2 8 = Ok (Some (Plain 80)) /\ SeekI 1 9 h 0 7 = Ok None /\ Seek (h 0%nat) 8 = None /\ SeekI 1 9 h 5 8 = Ok None /\
  last body Fwd 1 (fun o id => Seek (h o) id) 0 2 /\ finds body Fwd 1 (fun o id => Seek (h o) id) 6 0 None.
Proof.
  eexists. split; [reflexivity|]. split; [vm_compute; reflexivity|]. split; [vm_compute; reflexivity|]. split; [vm_compute; reflexivity|]. split; [vm_compute; reflexivity|]. split; [vm_compute; reflexivity|]. split.
  - apply last_next with 1%nat; [vm_compute; reflexivity|]. apply last_next with 2%nat; [vm_compute; reflexivity|]. apply last_here. vm_compute. reflexivity.
  - apply finds_next with 1%nat; [vm_compute; reflexivity|vm_compute; reflexivity|]. apply finds_next with 2%nat; [vm_compute; reflexivity|vm_compute; reflexivity|]. apply finds_none; vm_compute; reflexivity.
Qed.

Print Assumptions C102_map.
Print Assumptions C102_seek.
Print Assumptions C102_returns_partial.
Print Assumptions C102_add_partial.
Print Assumptions C102_unique.
Print Assumptions C102_add_refuted.
Print Assumptions C102_remove_refuted.
Print Assumptions C102_cycle_refuted.
