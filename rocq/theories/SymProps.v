(** C62: what a module exports is what its clients see.  Specification: SymSpec.v ([wf], [hiddens], [client]: assumptions; [sees], [all_seen]: conclusions). *)
From Verif Require Import Base SymModel SymBytes SymSpec SymImport SymMany.

(** The symbol file of a module is read without an error, and then the importing compiler knows exactly the exported objects of the module, with their types, and nothing else
    has changed. *)
Theorem C62_export_import : forall g H self K ts ms fuel links file,
  wf g H -> hiddens g H -> total_hidden g H <= MaxHdFld -> Forall ok_name links -> client g self K ts ms -> Export g fuel links = Ok file ->
  exists N m r rho, (forall n, (N <= n)%nat -> Import n self file ts ms = Ok (m, links, r)) /\ sees g H K ts ms (tys r) (mods r) m rho.
Proof. exact import_ok. Qed.
Print Assumptions C62_export_import.

(** Reading the files of any number of modules that agree about common types succeeds: the exported objects of all of them are seen, and a type two of them have is one type. *)
Theorem C62_many_modules : forall self es,
  Forall (ok_module self) es -> ForallOrdPairs (fun a b => consistent (eg a) (eg b)) es ->
  (length (nodup (list_eq_dec Z.eq_dec) (flat_map (fun e => modnames (eg e)) es)) <= 64)%nat ->
  exists N rhos ts' ms', (forall n, (N <= n)%nat -> Imports n self (map efile es) [] [] = Ok (ts', ms')) /\ all_seen es rhos ts' ms'.
Proof.
  intros self es OK CO RM.
  assert (CL : Forall2 (fun e K => client (eg e) self K [] []) es (map (fun _ => fun _ : nat => @None nat) es)).
  { assert (SUB : forall e, In e es -> (length (nodup (list_eq_dec Z.eq_dec) (modnames (eg e))) <= 64)%nat).
    { intros e J. revert RM. apply room_sub. intros x I. apply in_flat_map. exists e. auto. }
    clear - OK SUB. induction es as [| e es IH]; cbn [map]; constructor.
    - apply Forall_cons_iff in OK as [(_ & _ & _ & _ & SF & _) _]. constructor; try discriminate; auto.
      + cbn [map app]. apply SUB. left. reflexivity.
      + constructor.
      + intros [| k] n t E; discriminate.
    - apply IH; [apply Forall_cons_iff in OK; tauto | intros; apply SUB; right; assumption]. }
  destruct (imports_ok self es [] [] _ OK CO RM CL) as (N & rhos & ts' & ms' & P & S & _). exists N, rhos, ts', ms'. auto.
Qed.
Print Assumptions C62_many_modules.

(** ** A case

    MODULE M; TYPE B* = RECORD p*: POINTER TO R END; R* = RECORD (B) x-: INTEGER; h: POINTER TO R END; VAR a*: ARRAY 2 OF R; PROCEDURE (VAR r: R) m*; CONST c* = 70000;
    MODULE A; IMPORT M; TYPE S* = RECORD (M.R) END; VAR v*: S. *)
Module Case.
Definition nB : name := [66]. Definition nR : name := [82]. Definition nS : name := [83]. Definition nx : name := [120].
Definition gM := mkgraph
  [ mkstr 0 nR 0 24 (Rec (Some (TS 1)) 8 1 [mkfld nx ReadOnly (TInt 4) 8; mkfld [104] Internal (TS 2) 16] [mktp [109] External (mksig (TB 10) [mkpar true (TS 0) 0 nx]) 0]);
    mkstr 0 nB 0 8 (Rec None 8 0 [mkfld [112] External (TS 2) 0] []);
    mkstr 0 [] 0 8 (Pointer (TS 0));
    mkstr 0 [] 0 48 (Array (TS 0) 2) ] [[77]]
  [(nB, mkobj External (KTyp (TS 1))); (nR, mkobj External (KTyp (TS 0))); ([97], mkobj External (KVar (TS 3))); ([99], mkobj External (KCon (CInt 70000 4)))].
Definition HM (f : fld) : list Z := [16].
Definition HA (f : fld) : list Z := [16].
Definition gA := mkgraph
  [ mkstr 0 nS 0 24 (Rec (Some (TS 1)) 8 1 [] []);
    mkstr 1 nR 0 24 (Rec (Some (TS 2)) 8 1 [mkfld nx ReadOnly (TInt 4) 8; mkfld HdPtrName Internal (TB 0) 16] [mktp [109] External (mksig (TB 10) [mkpar true (TS 1) 0 nx]) 0]);
    mkstr 1 nB 0 8 (Rec None 8 0 [mkfld [112] External (TS 3) 0] []);
    mkstr 1 [] 0 8 (Pointer (TS 1)) ] [[65]; [77]]
  [(nS, mkobj External (KTyp (TS 0))); ([118], mkobj External (KVar (TS 0)))].
Definition self : name := [90].
Definition fM := Eval vm_compute in match Export gM 50 [] with Ok f => f | _ => [] end.
Definition fA := Eval vm_compute in match Export gA 50 [[77]] with Ok f => f | _ => [] end.
Ltac notin := let Q := fresh in cbn; intros Q; repeat destruct Q as [Q | Q]; try discriminate; try exact Q.
Ltac step :=
  match goal with
  | |- _ /\ _ => split
  | |- True => exact I
  | |- Forall _ [] => constructor
  | |- Forall _ (_ :: _) => constructor
  | |- NoDup [] => constructor
  | |- NoDup (_ :: _) => constructor
  | |- ~ In _ _ => solve [notin]
  | |- in_int _ _ => unfold in_int; cbn; lia
  | |- _ <> _ => solve [discriminate | cbn; discriminate]
  | |- ok_name _ => unfold ok_name; cbn [fst snd]
  | |- ok_ty _ => cbn [ok_ty]
  | |- ok_sign _ => unfold ok_sign; cbn [sres spar]
  | |- ok_par _ => unfold ok_par; cbn [ptyp padr pname]
  | |- ok_fld _ _ => unfold ok_fld; cbn [fvis ftyp fadr fname HM HA]
  | |- ok_tproc _ => unfold ok_tproc; cbn [tvis tsig tnum tname]
  | |- ok_obj _ => unfold ok_obj; cbn [fst snd okind ovis ok_const]
  | |- _ -> _ => intro
  | |- _ \/ _ => solve [left; repeat step | right; repeat step | lia]
  | |- _ = _ => reflexivity
  | |- (_ <= _ < _) => lia
  | |- (_ <= _) => lia
  | |- (_ < _) => lia
  | |- Forall _ (HM _) => unfold HM
  | |- Forall _ (HA _) => unfold HA
  end.
Ltac types i := destruct i as [| [| [| [| [| i]]]]]; unfold str_of; cbn [types gM gA nth].

Lemma wfM : wf gM HM.
Proof.
  constructor.
  - intros i. types i; unfold ok_str; cbn -[Z.mul in_int]; repeat step.
  - intros i. types i; cbn; try discriminate; intros _.
    + exists (0 + 1). eapply D_ext; [reflexivity |]. eapply D_root. reflexivity.
    + exists 0. eapply D_root. reflexivity.
  - intros a e b. types a; cbn; try discriminate; intros E; inversion E; subst e. cbn. intros E'. inversion E'; subst b. intros R.
    assert (Q : forall k, Reach gM (TS 1) k -> (k < 3)%nat).
    { intros k Rk. induction Rk as [k E1 | k j Rk IH J]; [inversion E1; lia |]. revert J. do 3 (destruct k as [| k]; [cbn; intros J; repeat destruct J as [J | J]; inversion J; lia |]). lia. }
    specialize (Q _ R). lia.
  - intros i j. types i; types j; cbn; try reflexivity; try discriminate; intros N E; try discriminate E; exfalso; apply N; try reflexivity; congruence.
  - cbn [modnames objects gM gA map fst snd]; repeat step.
  - intros i. types i; cbn; lia.
  - cbn [modnames objects gM gA map fst snd]; repeat step.
  - cbn [modnames objects gM gA map fst snd]; repeat step.
  - intros i. types i; cbn; intros _ N; try (exfalso; apply N; reflexivity); exists External; auto.
Qed.
Lemma hidM : hiddens gM HM.
Proof. intros i. types i; cbn; intros base al n fs ps f E J V; inversion E; subst; cbn in J; repeat destruct J as [<- | J]; try discriminate; try contradiction. exists 5%nat. reflexivity. Qed.
Lemma wfA : wf gA HA.
Proof.
  constructor.
  - intros i. types i; unfold ok_str; cbn -[Z.mul in_int]; repeat step.
  - intros i. types i; cbn; try discriminate; intros _.
    + exists (0 + 1 + 1). eapply D_ext; [reflexivity |]. eapply D_ext; [reflexivity |]. eapply D_root. reflexivity.
    + exists (0 + 1). eapply D_ext; [reflexivity |]. eapply D_root. reflexivity.
    + exists 0. eapply D_root. reflexivity.
  - intros a e b. types a; cbn; discriminate.
  - intros i j. types i; types j; cbn; try reflexivity; try discriminate; intros N E; try discriminate E; exfalso; apply N; try reflexivity; congruence.
  - cbn [modnames objects gM gA map fst snd]; repeat step.
  - intros i. types i; cbn; lia.
  - cbn [modnames objects gM gA map fst snd]; repeat step.
  - cbn [modnames objects gM gA map fst snd]; repeat step.
  - intros i. types i; cbn; intros E N; try discriminate E; try (exfalso; apply N; reflexivity); exists External; auto.
Qed.
Lemma hidA : hiddens gA HA.
Proof. intros i. types i; cbn; intros base al n fs ps f E J V; inversion E; subst; cbn in J; repeat destruct J as [<- | J]; try discriminate; try contradiction. exists 5%nat. reflexivity. Qed.
Lemma agree : consistent gM gA.
Proof.
  split; [discriminate |]. split; [| split].
  - intros i j. types i; types j; cbn; intros N E M; try discriminate E; try discriminate M; try (exfalso; apply N; reflexivity); auto.
  - intros i. types i; cbn; intros N E; try discriminate E; exfalso; apply N; reflexivity.
  - intros j. types j; cbn; intros N E; try discriminate E; try (exfalso; apply N; reflexivity); [exists 0%nat | exists 1%nat]; auto.
Qed.
Definition es := [mkem gM HM [] fM; mkem gA HA [[77]] fA].
Lemma ok : Forall (ok_module self) es.
Proof.
  constructor; [| constructor; [| constructor]]; unfold ok_module; cbn [eg eH elinks efile].
  - split; [apply wfM |]. split; [apply hidM |]. split; [cbn; discriminate |]. split; [constructor |]. split; [notin | exists 50%nat; vm_compute; reflexivity].
  - split; [apply wfA |]. split; [apply hidA |]. split; [cbn; discriminate |]. split; [repeat step |]. split; [notin | exists 50%nat; vm_compute; reflexivity].
Qed.
(** Both modules meet the assumptions, so the two files can be imported; the second gives the record type M.R the entry it has from the first. *)
Example C62_case : exists N rhos ts' ms', (forall n, (N <= n)%nat -> Imports n self [fM; fA] [] [] = Ok (ts', ms')) /\ all_seen es rhos ts' ms'.
Proof. apply (C62_many_modules self es ok); [constructor; [constructor; [apply agree | constructor] | repeat constructor] | cbn; lia]. Qed.
Example C62_case_run : exists ts' ms', Imports 50 self [fM; fA] [] [] = Ok (ts', ms') /\ length ts' = 6%nat /\
  look ms' [77] nR = Some (mkobj External (KTyp (TS 2))) /\ look ms' [65] nS = Some (mkobj External (KTyp (TS 4))) /\ (exists x, nth_error ts' 4 = Some x /\ ibase x = Some (TS 2)) /\
  look ms' [77] [97] = Some (mkobj External (KVar (TS 3))) /\ look ms' [77] [99] = Some (mkobj External (KCon (CInt 70000 4))).
Proof. do 2 eexists. split; [vm_compute; reflexivity |]. repeat split. eexists. split; reflexivity. Qed.
End Case.

(** ** What does not hold *)

(** An integer constant beyond 32 bits is cut off: the file has the bytes of SymWInt of a LONGINT (OPM.Mod 626; LONGINT is INT32 here). *)
Definition gC := mkgraph [] [[77]] [([98], mkobj External (KCon (CInt 5000000000 8)))].
Theorem C62_long_constant_refuted : exists file r, Export gC 50 [] = Ok file /\ Import 50 [90] file [] [] = Ok (0%nat, [], r) /\
  look (mods r) [77] [98] = Some (mkobj External (KCon (CInt 705032704 8))).
Proof. do 2 eexists. split; [vm_compute; reflexivity |]. split; [vm_compute; reflexivity |]. reflexivity. Qed.
Print Assumptions C62_long_constant_refuted.
(** [wf_early] is needed: R = RECORD (B) x-: INTEGER; h: P END with B = RECORD p*: POINTER TO ARRAY 3 OF R END.  The array is read before the size of R is known: it has size 24
    (that of B's part, 8, times 3) for the client and 72 for the module. *)
Definition gE := mkgraph
  [ mkstr 0 [82] 0 24 (Rec (Some (TS 1)) 8 1 [mkfld [120] ReadOnly (TInt 4) 8; mkfld [104] Internal (TS 2) 16] []);
    mkstr 0 [66] 0 8 (Rec None 8 0 [mkfld [112] External (TS 2) 0] []);
    mkstr 0 [] 0 8 (Pointer (TS 3));
    mkstr 0 [] 0 72 (Array (TS 0) 3) ] [[77]]
  [ ([82], mkobj External (KTyp (TS 0))) ].
Theorem C62_array_size_refuted : exists file r, Export gE 50 [] = Ok file /\ Import 50 [90] file [] [] = Ok (0%nat, [], r) /\
  ssize (str_of gE 3) = 72 /\ (forall s x, nth_error (tys r) s = Some x -> icomp x = 2 -> isize x <> 72).
Proof.
  do 2 eexists. split; [vm_compute; reflexivity |]. split; [vm_compute; reflexivity |]. split; [reflexivity |].
  intros s x E. do 4 (destruct s as [| s]; [vm_compute in E; inversion E; subst x; vm_compute; discriminate |]). destruct s; vm_compute in E; discriminate.
Qed.
Print Assumptions C62_array_size_refuted.
