(** * C66: control statements *)
From Verif Require Import Base FlowSpec FlowModel FlowProofs.
Local Open Scope Z_scope.

(** The C function generated for a procedure body does what the statements say, for all actions and tests, all
    nestings of IF, CASE, WITH, WHILE, REPEAT, LOOP, EXIT and RETURN, from every state, and with the same traps.
    At most 32767 LOOPs in the module before its end. *)
Theorem C66_control : forall (St : Type) asserts n fn (b : stats St) cnt st,
  0 <= cnt -> cnt + loops_l St b < 32767 -> ok_stats St false b = true ->
  c_run St n (fst (gen_proc St asserts fn b cnt)) st = run St asserts n fn b st /\
  (forall r, execs St asserts n b st = Ok r -> snd r <> Exit).
Proof.
  intros St asserts n fn b cnt st C L OK. split.
  - assert (W : gwf (mkG 0 (-1) cnt)) by (split; [|split]; cbn; lia).
    pose proof (proj1 (proj2 (simulation St asserts n)) b (mkG 0 (-1) cnt) st W) as S.
    specialize (S ltac:(unfold need; cbn; lia)). cbn [g_level] in S.
    pose proof (implicit_ok St asserts n b st) as IM.
    unfold c_run, gen_proc, run. destruct (gen_seq St asserts b (mkG 0 (-1) cnt)) as [cs g]. cbn [fst snd] in *.
    rewrite seq_app.
    destruct (execs St asserts n b st) as [[st1 o]|z| |], (seq St (c_exec St n) MRun cs st) as [[st2 o']|z'| |];
      cbn [sim bind] in *; try contradiction; try reflexivity; try (subst; reflexivity).
    destruct S as (-> & S). destruct o, o'; cbn in S; try contradiction; cbn [fst snd].
    + rewrite (IM st2 eq_refl). destruct fn; reflexivity.
    + reflexivity.
    + rewrite seq_skip; [reflexivity|]. destruct (implicit_return St b && fn); intros [].
    + subst. reflexivity.
  - intros [st1 o] E. pose proof (proj1 (proj2 (no_exit St asserts n)) b st OK) as S. rewrite E in S. cbn in *. destruct o; [discriminate | contradiction | discriminate].
Qed.

(** The function is a valid one: its labels are all different, and none was used before; every goto has its label in
    the function; every break stands in a loop or a switch. *)
Theorem C66_labels : forall (St : Type) asserts fn (b : stats St) cnt,
  0 <= cnt -> cnt + loops_l St b < 32767 -> ok_stats St false b = true ->
  let cs := fst (gen_proc St asserts fn b cnt) in
  let cnt1 := snd (gen_proc St asserts fn b cnt) in
  NoDup (flat_map (labels St) cs) /\
  (forall l, In l (flat_map (labels St) cs) -> cnt <= l < cnt1) /\
  (forall l, In l (flat_map (gotos St) cs) -> In l (flat_map (labels St) cs)) /\
  forallb (breaks St false) cs = true /\
  cnt <= cnt1 <= cnt + loops_l St b.
Proof.
  intros St asserts fn b cnt C L OK.
  assert (W : gwf (mkG 0 (-1) cnt)) by (split; [|split]; cbn; lia).
  pose proof (proj1 (proj2 (facts St asserts)) b (mkG 0 (-1) cnt) W ltac:(unfold need; cbn; lia)) as S.
  pose proof (proj1 (proj2 (no_label St asserts)) b (mkG 0 (-1) cnt) OK) as NL.
  pose proof (proj1 (proj2 (breaks_in St asserts)) b false false (mkG 0 (-1) cnt) OK (fun x => x)) as BR.
  unfold gen_proc. destruct (gen_seq St asserts b (mkG 0 (-1) cnt)) as [cs g]. cbn [fst snd g_label] in *.
  assert (LE : flat_map (labels St) (if implicit_return St b && fn then [CHalt St (-3)] else []) = []) by (destruct (implicit_return St b && fn); reflexivity).
  assert (GE : flat_map (gotos St) (if implicit_return St b && fn then [CHalt St (-3)] else []) = []) by (destruct (implicit_return St b && fn); reflexivity).
  assert (BE : forallb (breaks St false) (if implicit_return St b && fn then [CHalt St (-3)] else []) = true) by (destruct (implicit_return St b && fn); reflexivity).
  cbv zeta. rewrite !flat_map_app, LE, GE, !app_nil_r, forallb_app, BR, BE.
  destruct S as [A1 A2 A3 A4 A5 A6 A7 A8]. cbn [g_count] in *. split; [assumption|]. split; [|split; [|split]].
  - intros l H. apply A6 in H. tauto.
  - intros l H. apply A8 in H. destruct H as [H|(H1 & H2)]; [assumption|]. exfalso. congruence.
  - reflexivity.
  - unfold need in A4. rewrite NL in A4. cbn in A4. lia.
Qed.

Module Case.
(** A sum over an array, in a LOOP with a WHILE and a CASE in it and EXIT in both; the state is (i, s). *)
Definition St := (Z * Z)%type.
Definition act (f : Z * Z -> Z * Z) : act St := fun st => Ok (f st).
Definition tst (f : Z * Z -> bool) : test St := fun st => Ok (st, f st).
Definition val (f : Z * Z -> Z) : ival St := fun st => Ok (st, f st).
Notation "[: :]" := (Nil St).
Notation "[: x ; .. ; y :]" := (Cons St x .. (Cons St y (Nil St)) ..).
Definition inc := SAct St (act (fun '(i, s) => (i + 1, s))).
Definition add k := SAct St (act (fun '(i, s) => (i, s + k))).
Definition body : stats St := [:
  SLoop St [:
    inc;
    SCase St (val (fun '(i, s) => i mod 7))
      (CCons St [(0, 0); (2, 4)] [: add 10; SIf St (ACons St (tst (fun '(i, s) => s >? 95)) [: SExit St :] (ANil St)) [: :] :]
      (CCons St [(5, 5)] [: SLoop St [: SWhile St (tst (fun _ => true)) [: add 1; SExit St :] :] :] (CNil St)))
      true [: add 2 :];
    SWhile St (tst (fun '(i, s) => s <? 20)) [: add 3; SIf St (ACons St (tst (fun '(i, s) => i >? 40)) [: SExit St :] (ANil St)) [: :] :];
    SIf St (ACons St (tst (fun '(i, s) => i >? 100)) [: SExit St :] (ANil St)) [: :]
  :];
  SRet St (Some (val (fun '(i, s) => s * 1000 + i)))
:].

Example hyps : ok_stats St false body = true /\ loops_l St body = 2.
Proof. split; reflexivity. Qed.

Example runs : run St true 50 true body (0, 0) = Ok ((14, 108), Some 108014) /\
  c_run St 50 (fst (gen_proc St true true body 3)) (0, 0) = Ok ((14, 108), Some 108014).
Proof. split; vm_compute; reflexivity. Qed.

Example code : flat_map (labels St) (fst (gen_proc St true true body 3)) = [4; 3] /\
  flat_map (gotos St) (fst (gen_proc St true true body 3)) = [3; 4; 3] /\ snd (gen_proc St true true body 3) = 5.
Proof. repeat split; vm_compute; reflexivity. Qed.

(** The bound is needed: the counter is a 16-bit INTEGER, and the label after exit__32767 is exit__-32768. *)
Definition two : stats St := [:
  SLoop St [: SWhile St (tst (fun _ => true)) [: SExit St :] :];
  SLoop St [: SWhile St (tst (fun _ => true)) [: SExit St :] :] :].
Example overflow : flat_map (labels St) (fst (gen_proc St true false two 32767)) = [32767; -32768].
Proof. vm_compute. reflexivity. Qed.
End Case.

Print Assumptions C66_control.
Print Assumptions C66_labels.
