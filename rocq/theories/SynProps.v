(** * C67: the parser accepts exactly the Oberon-2 statements and expressions, and ends on every input
    English: see properties.jsonl, C67.  The grammar is SynSpec.G. *)
From Verif Require Import Base SynSpec SynModel SynProofs SynComplete SynSound.
Local Open Scope Z_scope.

Section C67.
(** What names and designators denote is arbitrary. *)
Variable ismod : Z -> bool.
Variables isvar isstd istproc : node -> bool.
Notation G := (G ismod isvar isstd istproc).
Notation parse_statements := (parse_statements ismod isvar isstd istproc).
Notation parse_expression := (parse_expression ismod isvar isstd istproc).

(** The symbol after a piece of the source. *)
Definition next (rest : list tok) : Z := match rest with [] => eof | t :: _ => fst t end.
(** Symbols that can follow a statement sequence: "|" END ELSE ELSIF UNTIL, and those after the statements
    (ARRAY ... eof, never part of a statement). *)
Definition after_statements (rest : list tok) : Prop := bar <= next rest <= until_ \/ return_ < next rest.
(** Symbols that can follow an expression: all but operators and selectors. *)
Definition after_expression (rest : list tok) : Prop := ~ (times <= next rest <= period) /\ next rest <> lparen /\ next rest <> lbrak.

(** Whatever the symbols, correct or not, the parser comes to an end; it only moves forward. *)
Theorem C67_terminates : forall ts, (exists n rest errors, parse_statements ts = Ok (n, (rest, errors)) /\ (length rest <= length ts)%nat) /\
  (exists n rest errors, parse_expression ts = Ok (n, (rest, errors)) /\ (length rest <= length ts)%nat).
Proof.
  intros ts. split.
  - destruct (ends_all ismod isvar isstd istproc (fuel_for ts) (MStat 0 []) (ts, [])) as (x & (r & e) & E & L & _);
      [unfold len, fuel_for; cbn [fst rank]; lia|]. exists x, r, e. split; [exact E | exact L].
  - destruct (ends_all ismod isvar isstd istproc (fuel_for ts) MExpr (ts, [])) as (x & (r & e) & E & L & _);
      [unfold len, fuel_for; cbn [fst rank]; lia|]. exists x, r, e. split; [exact E | exact L].
Qed.

(** Without an error it reads exactly the statement sequences of the grammar, and returns the tree of the grammar. *)
Theorem C67_statements : forall ts rest n, after_statements rest ->
  (parse_statements (ts ++ rest) = Ok (n, (rest, [])) <-> G (Seq 0) ts n).
Proof.
  intros ts rest n F. split.
  - intros E. destruct (sound _ _ _ _ _ _ _ _ _ E eq_refl) as (_ & l & -> & K & _). destruct (K eq_refl) as (a & A & H). cbn [fst] in A.
    apply app_inv_tail in A. now subst.
  - intros H. destruct (complete _ _ _ _ _ _ _ H) as (l & -> & K). unfold SynModel.parse_statements.
    rewrite parse_run by (unfold len, fuel_for; cbn [fst rank]; lia). apply seq_end; [exact K|].
    unfold after_statements, next, fSeq, sym in *. cbn [fst]. lia.
Qed.

Theorem C67_expressions : forall ts rest n, after_expression rest ->
  (parse_expression (ts ++ rest) = Ok (n, (rest, [])) <-> G Expr ts n).
Proof.
  intros ts rest n F. split.
  - intros E. destruct (sound _ _ _ _ _ _ _ _ _ E eq_refl) as (_ & a & A & H). cbn [fst] in A. apply app_inv_tail in A. now subst.
  - intros H. pose proof (complete _ _ _ _ _ _ _ H) as K. cbn [C] in K. unfold SynModel.parse_expression.
    rewrite parse_run by (unfold len, fuel_for; cbn [fst rank]; lia). apply K.
    unfold after_expression, next, fExp, fFac, sym in *. cbn [fst]. lia.
Qed.

(** Symbols that are no statement sequence are reported, or not all read. *)
Corollary C67_rejects : forall ts rest, after_statements rest -> (forall n, ~ G (Seq 0) ts n) ->
  forall n r e, parse_statements (ts ++ rest) = Ok (n, (r, e)) -> e <> [] \/ r <> rest.
Proof.
  intros ts rest F H n r e E. destruct e; [right | left; discriminate]. intros ->. apply (H n). now apply (C67_statements ts rest).
Qed.

(** Each sequence of symbols has one meaning. *)
Corollary C67_unambiguous : forall ts n1 n2,
  (G (Seq 0) ts n1 -> G (Seq 0) ts n2 -> n1 = n2) /\ (G Expr ts n1 -> G Expr ts n2 -> n1 = n2).
Proof.
  intros ts n1 n2. split; intros A B.
  - apply (C67_statements ts []) in A; [|right; cbn; lia]. apply (C67_statements ts []) in B; [|right; cbn; lia]. congruence.
  - assert (F : after_expression []) by (repeat split; cbn; lia).
    apply (C67_expressions ts []) in A; [|exact F]. apply (C67_expressions ts []) in B; [|exact F]. congruence.
Qed.
End C67.

Module Case.
(* names: 1 x, 2 i, 3 a, 4 f (a procedure), 5 M (a module), 6 INC (predeclared), 7 T (a type), 8 p *)
Definition ismod (x : Z) := x =? 5.
Definition isvar (d : node) := match d with NQual None x => (x <? 4) || (x =? 8) | NIndex _ _ | NField _ _ | NDeref _ | NGuard _ _ => true | _ => false end.
Definition isstd (d : node) := match d with NQual None x => x =? 6 | _ => false end.
Definition istproc (d : node) := match d with NField _ x => x =? 9 | _ => false end.
Notation parse_statements := (parse_statements ismod isvar isstd istproc).
Notation "'id' x" := (ident, x) (at level 0).
Notation "'num' x" := (number, x) (at level 0).
Notation "'k' x" := (x, 0) (at level 0).

(* WHILE i < a[i, 3] DO INC(i); LOOP x := -x * 2 + i; IF x IN {1, 4..6} THEN EXIT ELSIF p IS T THEN p(T).9^(x) END END; END;
   CASE i OF 1, 3..5: f; | 7: M.f(x, ~ x) ELSE END *)
Definition prog : list tok := [
  k while_; id 2; k 11; id 3; k lbrak; id 2; k comma; num 3; k 23; k do_; id 6; k lparen; id 2; k rparen; k semicolon;
  k loop_; id 1; k becomes; k minus; id 1; k times; num 2; k plus; id 2; k semicolon;
  k if_; id 1; k in_; k lbrace; num 1; k comma; num 4; k upto; num 6; k rbrace; k then_; k exit_;
  k elsif_; id 8; k is_; id 7; k then_; id 8; k lparen; id 7; k rparen; k period; id 9; k arrow; k lparen; id 1; k rparen; k end_; k end_; k semicolon; k end_;
  k semicolon; k case_; id 2; k of_; num 1; k comma; num 3; k upto; num 5; k colon; id 4; k semicolon; k bar;
  num 7; k colon; id 5; k period; id 4; k lparen; id 1; k comma; k not_; id 1; k rparen; k else_; k end_ ].
Definition v (x : Z) := NQual None x.
Definition tree : node := NSeq [
  NWhile (NOp 11 (v 2) (NIndex (NIndex (v 3) (v 2)) (NNum 3)))
    (NSeq [NStd (v 6) [v 2];
      NLoop (NSeq [NAssign (v 1) (NOp plus (NNeg (NOp times (v 1) (NNum 2))) (v 2));
        NIf [NArm (NIn (v 1) (NOp plus (NElem (NNum 1)) (NRange (NNum 4) (NNum 6)))) (NSeq [NExit]);
             NArm (NIs (v 8) (v 7)) (NSeq [NCall (NSuper (NField (NGuard (v 8) (v 7)) 9)) [v 1]])] NNone])]);
  NCase (v 2) [NDo [NElem (NNum 1); NRange (NNum 3) (NNum 5)] (NSeq [NCall (v 4) []]);
    NDo [NElem (NNum 7)] (NSeq [NCall (NQual (Some 5) 4) [v 1; NNot (v 1)]])] (NSeq [])].

Example parsed : parse_statements (prog ++ [k end_; id 1]) = Ok (tree, ([k end_; id 1], [])).
Proof. vm_compute. reflexivity. Qed.
(** So the program is in the grammar, with this tree. *)
Example in_grammar : G ismod isvar isstd istproc (Seq 0) prog tree.
Proof. apply (C67_statements ismod isvar isstd istproc prog [k end_; id 1]); [left; cbn; lia | exact parsed]. Qed.

(** x := ) ; IF i THEN EXIT y  -- errors 13 (factor; the ";" is lost), 39 (";" missing), 46 (EXIT without LOOP), 39 (";" missing), 41 (END missing), and the parser goes on. *)
Example erroneous : parse_statements [id 1; k becomes; k rparen; k semicolon; k if_; id 2; k then_; k exit_; id 4] =
  Ok (NSeq [NAssign (v 1) NBad; NIf [NArm (v 2) (NSeq [NExit; NCall (v 4) []])] NNone], ([], [41; 39; 46; 39; 13; 13])).
Proof. vm_compute. reflexivity. Qed.
Example not_in_grammar : forall n, ~ G ismod isvar isstd istproc (Seq 0) [k exit_] n.
Proof. intros n H. apply (C67_statements ismod isvar isstd istproc [k exit_] []) in H; [|right; cbn; lia]. vm_compute in H. discriminate H. Qed.
End Case.

Print Assumptions C67_terminates.
Print Assumptions C67_statements.
Print Assumptions C67_expressions.
Print Assumptions C67_rejects.
Print Assumptions C67_unambiguous.
