(** * C65: procedures nested in procedures reach the variables of the right activations *)
From Verif Require Import Base NestSpec NestModel NestEqs NestProofs NestSim.
From Coq Require Import Arith.
Local Open Scope nat_scope.

(** The module body is a procedure of the module level without parameters. *)
Definition main_ok (P : prog) (main : nat) : Prop :=
  exists pr, nth_error (procs P) main = Some pr /\ p_parent pr = None /\ p_params pr = [].

Lemma start : forall P, accepted P = true -> exists m glob cglob, new_locals [] (globals P) = (m, glob) /\
  c_locals [] (globals P) = (m, cglob) /\ frel (globals P) cglob glob /\ mem_ok P m /\ objs_ok (shape m) (globals P) glob.
Proof.
  intros P A. unfold accepted in A. apply andb_true_iff in A. destruct A as (A & _).
  assert (M : mem_ok P []) by (intros [|b] l k v E; discriminate).
  destruct (new_locals_ok P _ _ A M) as (m & glob & E1 & E2 & E3). cbn [app] in *.
  destruct (c_locals_ok _ _ _ _ A E1) as (cglob & C1 & C2). exists m, glob, cglob. auto 10.
Qed.

(** For every accepted program - any number and depth of nested procedures, any recursion, calls through procedure
    variables, any parameters - in which no procedure uses a fixed-size VAR array or a many-dimensional open array
    of an enclosing procedure or applies a type guard to one of its records: however long it runs, the C program
    does exactly what the source means by lexical scoping, with the same values in all variables, the same result,
    the same stops.  At the end every scope pointer is what it was at the start, and no scope struct is left. *)
Theorem C65_nested : forall P main n, accepted P = true -> simple P = true -> main_ok P main ->
  c_run P n main =
  match run P n main with
  | Ok (m, v) => Ok (mkC m (repeat None (length (procs P))) [], v)
  | Trap c => Trap c
  | UB => UB
  | Fuel => Fuel
  end.
Proof.
  intros P main n A S (pr & Q & PN & PP). unfold c_run, run.
  destruct (start P A) as (m & glob & cglob & E1 & E2 & R & M & G). rewrite E1, E2.
  destruct (sim P A S glob cglob R n) as (_ & _ & _ & _ & _ & _ & II & _ & _).
  rewrite (II [] m main pr []); try assumption.
  - destruct (invoke P glob n [] m main []) as [[m' v]|c| |]; reflexivity.
  - split; [constructor | assumption].
  - now rewrite PN.
  - now rewrite PN.
  - rewrite PP. constructor.
  - constructor.
  - apply repeat_length.
Qed.

(** No accepted program ever reads or writes storage of an activation that has ended: a nested procedure is never
    run when the activation it was declared in is gone. *)
Theorem C65_no_dangling : forall P main n, accepted P = true -> main_ok P main -> run P n main <> Trap dangling.
Proof.
  intros P main n A (pr & Q & PN & PP) H. unfold run in H.
  destruct (start P A) as (m & glob & cglob & E1 & E2 & R & M & G). rewrite E1 in H.
  destruct (safe P A glob n) as (_ & _ & _ & _ & _ & _ & SI & _ & _).
  assert (K : good (fun x => kept P m (fst x) /\ (forall v, snd x = Some v -> val_ok P v)) (invoke P glob n [] m main [])).
  { apply (SI [] m main pr []); try assumption.
    - split; [constructor | assumption].
    - now rewrite PN.
    - now rewrite PN.
    - rewrite PP. constructor. }
  rewrite H in K. cbn in K. congruence.
Qed.

(** So the C program does not either, and its scope pointers are never null or dangling when used: its only
    undefined behaviour is that of the source (a variable used before it has a value). *)
Corollary C65_scopes_live : forall P main n, accepted P = true -> simple P = true -> main_ok P main ->
  c_run P n main <> Trap dangling /\ (c_run P n main = UB <-> run P n main = UB).
Proof.
  intros P main n A S K. rewrite (C65_nested _ _ _ A S K). pose proof (C65_no_dangling P main n A K) as D.
  destruct (run P n main) as [[m v]|c| |]; split; try congruence; split; congruence.
Qed.

(** ** A program with recursion

    MODULE: g: INTEGER
    0  PROCEDURE main; VAR a: ARRAY 3 OF INTEGER
         a[0] := 1; a[1] := 10; a[2] := 100; outer(a, 2)
    1  PROCEDURE outer(VAR a: ARRAY OF INTEGER; n: INTEGER); VAR s: INTEGER
    2    PROCEDURE add(k: INTEGER)
    3      PROCEDURE deeper: INTEGER
             IF n > 0 THEN outer(a, n - 1) END; RETURN a[k] * (n + 1)
           s := s + deeper(); IF k > 0 THEN add(k - 1) END
         s := 0; add(LEN(a) - 1); g := g + s
    g is set to 0 in main first. *)
Module Case.
Definition int := mkDecl false KScal.
Definition rdv (r : ref) : expr := ERd (DVar r).
Definition gt (a b : Z) : Z := if (b <? a)%Z then 1%Z else 0%Z.

Definition P : prog := mkProg
  [ mkProc None false [] [mkDecl false (KFix [3])]
      [ SAss (DVar (RGlob 0)) (EInt 0);
        SAss (DElem (RLoc 0 0) [EInt 0]) (EInt 1); SAss (DElem (RLoc 0 0) [EInt 1]) (EInt 10);
        SAss (DElem (RLoc 0 0) [EInt 2]) (EInt 100); SCall 1 [AWhole (RLoc 0 0); AVal (EInt 2)] ];
    mkProc None false [mkDecl true (KOpen 1); int] [int]
      [ SAss (DVar (RLoc 1 2)) (EInt 0); SCall 2 [AVal (EBin Z.sub (ELen (RLoc 1 0) 0) (EInt 1))];
        SAss (DVar (RGlob 0)) (EBin Z.add (rdv (RGlob 0)) (rdv (RLoc 1 2))) ];
    mkProc (Some 1) false [int] []
      [ SAss (DVar (RLoc 1 2)) (EBin Z.add (rdv (RLoc 1 2)) (ECall 3 []));
        SIf (EBin gt (rdv (RLoc 2 0)) (EInt 0)) [SCall 2 [AVal (EBin Z.sub (rdv (RLoc 2 0)) (EInt 1))]] [] ];
    mkProc (Some 2) true [] []
      [ SIf (EBin gt (rdv (RLoc 1 1)) (EInt 0))
          [SCall 1 [AWhole (RLoc 1 0); AVal (EBin Z.sub (rdv (RLoc 1 1)) (EInt 1))]] [];
        SRet (Some (EBin Z.mul (ERd (DElem (RLoc 1 0) [rdv (RLoc 2 0)])) (EBin Z.add (rdv (RLoc 1 1)) (EInt 1)))) ] ]
  [int].

(** outer(a, 2) calls outer(a, 1) three times and each of these outer(a, 0) three times:
    111 * 3 + 3 * (111 * 2) + 9 * 111 = 111 * 18 *)
Example C65_example : accepted P = true /\ simple P = true /\ main_ok P 0 /\ level P 3 = 3 /\
  scope_leaf P 1 = false /\ var_leaf P 1 2 = false /\ var_leaf P 2 0 = false /\
  run P 200 0 = Ok ([[Some (VInt 1998)]], None) /\
  c_run P 200 0 = Ok (mkC [[Some (VInt 1998)]] [None; None; None; None] [], None).
Proof. repeat split; try (vm_compute; reflexivity). eexists. repeat split. Qed.
End Case.

(** ** What the restriction excludes: findings *)

(** PROCEDURE outer(m: ARRAY OF ARRAY OF INTEGER); PROCEDURE inner; BEGIN g := LEN(m, 1) END inner; BEGIN inner END:
    only the length of the first dimension gets into the scope struct (OPC.Mod 1021-1031), and the nested procedure
    reads a length that was never set. *)
Theorem C65_open_matrix_refuted : exists P main n, accepted P = true /\ main_ok P main /\
  run P n main = Ok ([[Some (VInt 3)]], None) /\ c_run P n main = UB.
Proof.
  exists (mkProg
    [ mkProc None false [] [mkDecl false (KFix [2; 3])] [SCall 1 [AWhole (RLoc 0 0)]];
      mkProc None false [mkDecl true (KOpen 2)] [] [SCall 2 []];
      mkProc (Some 1) false [] [] [SAss (DVar (RGlob 0)) (ELen (RLoc 1 0) 1)] ] [mkDecl false KScal]), 0, 50.
  split; [reflexivity|]. split; [eexists; repeat split|]. split; vm_compute; reflexivity.
Qed.

(** PROCEDURE outer(VAR a: Vec); PROCEDURE inner; BEGIN a[1] := 7 END inner; BEGIN inner; g := a[1] END with
    Vec = ARRAY 2 OF INTEGER: the C text is [outer_s->a[1]] with [a] a pointer to the array, which is no element. *)
Theorem C65_var_array_refuted : exists P main n, accepted P = true /\ main_ok P main /\
  run P n main = Ok ([[Some (VInt 7)]], None) /\ c_run P n main = UB.
Proof.
  exists (mkProg
    [ mkProc None false [] [mkDecl false (KFix [2])] [SCall 1 [AWhole (RLoc 0 0)]];
      mkProc None false [mkDecl true (KFix [2])] []
        [SCall 2 []; SAss (DVar (RGlob 0)) (ERd (DElem (RLoc 1 0) [EInt 1]))];
      mkProc (Some 1) false [] [] [SAss (DElem (RLoc 1 0) [EInt 1]) (EInt 7)] ] [mkDecl false KScal]), 0, 50.
  split; [reflexivity|]. split; [eexists; repeat split|]. split; vm_compute; reflexivity.
Qed.

(** PROCEDURE outer(VAR r: T); PROCEDURE inner; BEGIN r(T).x := 7 END inner; BEGIN inner; g := r.x END: the C text
    of the guard is [outer__curr->r], and no such name is declared (OPV.Mod 366). *)
Theorem C65_guard_refuted : exists P main n, accepted P = true /\ main_ok P main /\
  run P n main = Ok ([[Some (VInt 7)]], None) /\ c_run P n main = UB.
Proof.
  exists (mkProg
    [ mkProc None false [] [mkDecl false (KRec 0)] [SCall 1 [AWhole (RLoc 0 0)]];
      mkProc None false [mkDecl true (KRec 0)] [] [SCall 2 []; SAss (DVar (RGlob 0)) (ERd (DVar (RLoc 1 0)))];
      mkProc (Some 1) false [] [] [SAss (DGuard (RLoc 1 0) 0) (EInt 7)] ] [mkDecl false KScal]), 0, 50.
  split; [reflexivity|]. split; [eexists; repeat split|]. split; vm_compute; reflexivity.
Qed.

Print Assumptions C65_nested.
Print Assumptions C65_no_dangling.
Print Assumptions C65_scopes_live.
Print Assumptions C65_open_matrix_refuted.
Print Assumptions C65_var_array_refuted.
Print Assumptions C65_guard_refuted.
