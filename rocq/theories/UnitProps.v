(** * C74: the parser accepts exactly the modules of the grammar, and ends on every text
    [Module_] (UnitSpec.v) is the grammar of the language report for modules, declarations, types and procedure headings.  [module] (UnitModel.v) is the parser.  The symbols
    are any list; what the names denote at each place ([ismod], [isvar], [isstd], [istproc]) is any function. *)
From Verif Require Import Base SynSpec SynModel SynProofs UnitSpec UnitModel UnitProofs UnitSound UnitComplete.
Local Open Scope Z_scope.

Section Theorems.
Variable ismod : nat -> Z -> bool.
Variables isvar isstd istproc : nat -> node -> bool.

Lemma module_rest_ends : forall x l s, exists t s', module_rest ismod isvar isstd istproc x l s = Ok (t, s').
Proof.
  intros x l s. unfold module_rest. destruct (snd s); [|eauto].
  destruct (uends_all ismod isvar isstd istproc (ufuel s) (UBlock 0) s) as (b & s1 & -> & _); [unfold ufuel, len; cbn [urank]; lia|]. cbn [bind]. eauto.
Qed.

(** Every text is read to the end of the parse: no loop of the parser, not even of its error recovery, runs for ever. *)
Theorem C74_terminates : forall ts : list tok, exists t s', module ismod isvar isstd istproc ts = Ok (t, s').
Proof.
  intros ts. unfold module. cbv zeta. destruct (sym _ =? 38); [|eauto]. destruct (sym _ =? 62); [|apply module_rest_ends].
  match goal with |- context [UnitModel.uparse _ _ _ _ (ufuel ?s) _ _] => destruct (uends_all ismod isvar isstd istproc (ufuel s) UImports s) as (l & s1 & -> & _); [unfold ufuel, len; cbn [urank]; lia|] end.
  cbn [bind]. apply module_rest_ends.
Qed.

(** A text is accepted without an error if and only if the grammar derives a module from it; the tree built is the one derived, and [rest], from the final period on, is left. *)
Theorem C74_module : forall (ts rest : list tok) (t : tree),
  module ismod isvar isstd istproc ts = Ok (t, (rest, [])) <-> Module_ ismod isvar isstd istproc ts rest t.
Proof. intros ts rest t. split; [apply module_sound | apply module_complete]. Qed.

(** Every other text is reported: the list of errors is not empty. *)
Theorem C74_rejects : forall ts : list tok, (forall rest t, ~ Module_ ismod isvar isstd istproc ts rest t) ->
  exists t rest n e, module ismod isvar isstd istproc ts = Ok (t, (rest, n :: e)).
Proof.
  intros ts H. destruct (C74_terminates ts) as (t & [rest [|n e]] & E); [exfalso; exact (H _ _ (module_sound _ _ _ _ _ _ _ E))|]. eauto.
Qed.

(** The grammar gives a text one meaning: one tree, and one place where the module ends. *)
Theorem C74_unambiguous : forall (ts rest rest' : list tok) (t t' : tree),
  Module_ ismod isvar isstd istproc ts rest t -> Module_ ismod isvar isstd istproc ts rest' t' -> t = t' /\ rest = rest'.
Proof.
  intros ts rest rest' t t' H H'. apply C74_module in H. apply C74_module in H'. rewrite H in H'. injection H' as -> ->. auto.
Qed.

(** The same for the parts: a type, and the declarations and body of a procedure. *)
Theorem C74_type : forall lv (ts rest : list tok) (t : tree), after_type (sym (rest, [])) = true ->
  (uparse ismod isvar isstd istproc (ufuel (ts, [])) (UType lv) (ts, []) = Ok (t, (rest, [])) <-> D ismod isvar isstd istproc (UType lv) ts rest t).
Proof.
  intros lv ts rest t F. rewrite uparse_run by (unfold ufuel, len; cbn [fst urank]; lia). split; intros H.
  - destruct (usound _ _ _ _ _ _ _ _ _ H eq_refl) as (_ & K). exact K.
  - apply (ucomplete _ _ _ _ _ _ _ _ H). exact F.
Qed.
Theorem C74_block : forall lv (ts rest : list tok) (t : tree),
  uparse ismod isvar isstd istproc (ufuel (ts, [])) (UBlock lv) (ts, []) = Ok (t, (rest, [])) <-> D ismod isvar isstd istproc (UBlock lv) ts rest t.
Proof.
  intros lv ts rest t. rewrite uparse_run by (unfold ufuel, len; cbn [fst urank]; lia). split; intros H.
  - destruct (usound _ _ _ _ _ _ _ _ _ H eq_refl) as (_ & K). exact K.
  - apply (ucomplete _ _ _ _ _ _ _ _ H). exact I.
Qed.
End Theorems.

Print Assumptions C74_terminates.
Print Assumptions C74_module.
Print Assumptions C74_rejects.
Print Assumptions C74_unambiguous.
Print Assumptions C74_type.
Print Assumptions C74_block.

(** ** Examples *)
Module Case.
Definition k (n : Z) : tok := (n, 0).
Definition id (n : Z) : tok := (38, n).
(** Names: 1 M, 2 A, 3 B, 4 C, 5 T, 6 R, 7 x, 8 y, 9 INTEGER, 10 p, 11 t, 12 P, 13 a, 14 c, 15 i, 16 Q, 17 CHAR.  A and B are modules. *)
Definition im (_ : nat) (x : Z) : bool := (x =? 2) || (x =? 3).
Definition none (_ : nat) (_ : node) : bool := false.
(* MODULE M; IMPORT A, B := C;
     TYPE T* = RECORD (A.R) x*, y-: INTEGER END;
     VAR p: POINTER TO T;
     PROCEDURE (VAR t: T) P* (a: INTEGER; VAR c: ARRAY OF CHAR): INTEGER;
       VAR i: INTEGER;
       PROCEDURE Q; END Q;
     BEGIN i := a
     END P;
   BEGIN x := 5
   END M. *)
Definition text (last : Z) : list tok :=
  [k 63; id 1; k 39; k 62; id 2; k 19; id 3; k 34; id 4; k 39;
   k 59; id 5; k 1; k 9; k 55; k 30; id 2; k 18; id 6; k 22; id 7; k 1; k 19; id 8; k 7; k 20; id 9; k 41; k 39;
   k 60; id 10; k 20; k 56; k 28; id 5; k 39;
   k 61; k 30; k 60; id 11; k 20; id 5; k 22; id 12; k 1; k 30; id 13; k 20; id 9; k 39; k 60; id 14; k 20; k 54; k 25; id 17; k 22; k 20; id 9; k 39;
   k 60; id 15; k 20; id 9; k 39;
   k 61; id 16; k 39; k 41; id 16; k 39;
   k 57; id 15; k 34; id 13; k 41; id 12; k 39;
   k 57; id 7; k 34; (35, 5); k 41; id last; k 18].
Definition tree1 : tree :=
  TModule 1 [(2, 2); (3, 4)]
    (TBlock
       [TType (5, Exported) (TRecord None (Some (NQual (Some 2) 6)) [TField [(7, Exported); (8, ReadOnly)] (TName (NQual None 9))]);
        TVar [(10, Private)] (TPointer None (TName (NQual None 5)))]
       [TProc Plain (Some (true, 11, 5)) (12, Exported)
          (Some (TSig [TParam false [13] (TName (NQual None 9)); TParam true [14] (TArray None None (TName (NQual None 17)))] (Some (NQual None 9))))
          (Some (TBlock [TVar [(15, Private)] (TName (NQual None 9))] [TProc Plain None (16, Private) None (Some (TBlock [] [] None))] (Some (NSeq [NAssign (NQual None 15) (NQual None 13)]))))]
       (Some (NSeq [NAssign (NQual None 7) (NNum 5)]))).
Example accepted : module im none none none (text 1) = Ok (tree1, ([k 18], [])).
Proof. vm_compute. reflexivity. Qed.
Example derived : Module_ im none none none (text 1) [k 18] tree1.
Proof. apply C74_module. exact accepted. Qed.
(** The name at the end is another one: error 4. *)
Example wrong_name : module im none none none (text 2) = Ok (tree1, ([k 18], [4])).
Proof. vm_compute. reflexivity. Qed.
Example not_derived : forall rest t, ~ Module_ im none none none (text 2) rest t.
Proof. intros rest t H. apply C74_module in H. rewrite wrong_name in H. discriminate H. Qed.
(** ARRAY 3, OF INTEGER: the comma without a length is found by the procedure for types. *)
Example bad_array : exists t s, uparse im none none none 200 (UType 0) ([k 54; (35, 3); k 19; k 25; id 9; k 39], []) = Ok (t, (s, [15; 15])).
Proof. do 2 eexists. vm_compute. reflexivity. Qed.
(** An exported variable in a procedure: error 47. *)
Example bad_mark : exists t s, uparse im none none none 200 (UBlock 1) ([k 60; id 7; k 1; k 20; id 9; k 39; k 41], []) = Ok (t, (s, [47])).
Proof. do 2 eexists. vm_compute. reflexivity. Qed.
End Case.
