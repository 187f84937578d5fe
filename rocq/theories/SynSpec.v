(** * The grammar of Oberon-2 statements and expressions
    A specification independent of the parser: the productions of the Oberon-2 report (Moessenboeck and Wirth,
    appendix B), as a relation between a sequence of symbols and the tree it denotes.

    A symbol is a pair of its kind and its value (name, number or string, numbered).  The kinds are numbered as in
    the scanner's table (OPS.Mod 12-27), which is data, not behaviour.

    Where the grammar of the report is ambiguous without types, the meaning of names decides; it is given by
    arbitrary functions:
    - [ismod x]: x denotes a module;
    - [isvar d]: the designator denotes a variable of a type that can be guarded, not a procedure (variable);
    - [isstd d]: it denotes a predeclared procedure, or a type name and the like whose arguments are special;
    - [istproc d]: the last selector of d is a type-bound procedure. *)
From Verif Require Import Base.
Local Open Scope Z_scope.

Notation tok := (Z * Z)%type.

(** Kinds of symbols *)
Notation times := 1 (only parsing). Notation and_ := 5 (only parsing). Notation plus := 6 (only parsing).
Notation minus := 7 (only parsing). Notation or_ := 8 (only parsing).
Notation eql := 9 (only parsing). Notation geq := 14 (only parsing). Notation in_ := 15 (only parsing).
Notation is_ := 16 (only parsing). Notation arrow := 17 (only parsing). Notation period := 18 (only parsing).
Notation comma := 19 (only parsing). Notation colon := 20 (only parsing). Notation upto := 21 (only parsing).
Notation rparen := 22 (only parsing). Notation rbrak := 23 (only parsing).
Notation rbrace := 24 (only parsing). Notation of_ := 25 (only parsing). Notation then_ := 26 (only parsing).
Notation do_ := 27 (only parsing). Notation to_ := 28 (only parsing). Notation by_ := 29 (only parsing).
Notation lparen := 30 (only parsing). Notation lbrak := 31 (only parsing). Notation lbrace := 32 (only parsing).
Notation not_ := 33 (only parsing). Notation becomes := 34 (only parsing).
Notation number := 35 (only parsing). Notation nil_ := 36 (only parsing). Notation string_ := 37 (only parsing).
Notation ident := 38 (only parsing). Notation semicolon := 39 (only parsing).
Notation bar := 40 (only parsing). Notation end_ := 41 (only parsing). Notation else_ := 42 (only parsing).
Notation elsif_ := 43 (only parsing). Notation until_ := 44 (only parsing).
Notation if_ := 45 (only parsing). Notation case_ := 46 (only parsing). Notation while_ := 47 (only parsing).
Notation repeat_ := 48 (only parsing). Notation for_ := 49 (only parsing).
Notation loop_ := 50 (only parsing). Notation with_ := 51 (only parsing). Notation exit_ := 52 (only parsing).
Notation return_ := 53 (only parsing). Notation eof := 64 (only parsing).

(** Syntax trees *)
Inductive node :=
(* leaves *)
| NNum (v : Z) | NStr (v : Z) | NNil | NEmpty | NQual (m : option Z) (x : Z)
(* expressions *)
| NNot (a : node) | NNeg (a : node) | NPos (a : node)
| NOp (op : Z) (a b : node) | NIn (a b : node) | NIs (a t : node)
| NElem (a : node) | NRange (a b : node)
(* designators and calls *)
| NIndex (d e : node) | NField (d : node) (x : Z) | NSuper (d : node) | NDeref (d : node) | NGuard (d t : node)
| NCall (d : node) (args : list node) | NStd (d : node) (args : list node)
(* statements *)
| NSeq (l : list node) | NAssign (d e : node) | NArm (c b : node) | NIf (arms : list node) (e : node)
| NDo (labels : list node) (b : node) | NCase (x : node) (cases : list node) (e : node)
| NWhile (c b : node) | NRepeat (b c : node) | NFor (x a b s body : node) | NLoop (b : node)
| NWith (arms : list node) (e : node) | NExit | NReturn (e : node)
(* absent part; part in error *)
| NNone | NBad.

(** A list of statements, or of case arms, leaves out the empty ones. *)
Definition snoc (l : list node) (x : node) : list node := match x with NNone => l | _ => l ++ [x] end.

(** Nonterminals; [d]: the number of LOOP statements around. *)
Inductive nt :=
| Expr | Simple | Term | Factor | Elements | Element | Qual | Desig | Index (d : node) | Args
| Seq (d : Z) | Stat (d : Z) | Arm (d : Z) | Elsifs (d : Z) | Else (d : Z) | Cases (d : Z) | Case (d : Z) | Labels
| By | Withs (d : Z) | Guarded (d : Z).

Section Grammar.
Variable ismod : Z -> bool.
Variables isvar isstd istproc : node -> bool.

Definition is_tfield (d : node) : bool := match d with NField _ _ => istproc d | _ => false end.

Inductive G : nt -> list tok -> node -> Prop :=
(* Expression = SimpleExpression [Relation SimpleExpression]. *)
| x_simple : forall a x, G Simple a x -> G Expr a x
| x_rel : forall a x op v b y, G Simple a x -> eql <= op <= geq -> G Simple b y -> G Expr (a ++ (op, v) :: b) (NOp op x y)
| x_in : forall a x v b y, G Simple a x -> G Simple b y -> G Expr (a ++ (in_, v) :: b) (NIn x y)
| x_is : forall a x v b t, G Simple a x -> G Qual b t -> G Expr (a ++ (is_, v) :: b) (NIs x t)
(* SimpleExpression = ["+" | "-"] Term {AddOperator Term}. *)
| s_term : forall a x, G Term a x -> G Simple a x
| s_neg : forall v a x, G Term a x -> G Simple ((minus, v) :: a) (NNeg x)
| s_pos : forall v a x, G Term a x -> G Simple ((plus, v) :: a) (NPos x)
| s_add : forall a x op v b y, G Simple a x -> plus <= op <= or_ -> G Term b y -> G Simple (a ++ (op, v) :: b) (NOp op x y)
(* Term = Factor {MulOperator Factor}. *)
| t_factor : forall a x, G Factor a x -> G Term a x
| t_mul : forall a x op v b y, G Term a x -> times <= op <= and_ -> G Factor b y -> G Term (a ++ (op, v) :: b) (NOp op x y)
(* Factor = Designator [ActualParameters] | number | string | NIL | Set | "(" Expression ")" | "~" Factor. *)
| f_num : forall v, G Factor [(number, v)] (NNum v)
| f_str : forall v, G Factor [(string_, v)] (NStr v)
| f_nil : forall v, G Factor [(nil_, v)] NNil
| f_par : forall v w a x, G Expr a x -> G Factor ((lparen, v) :: a ++ [(rparen, w)]) x
| f_empty : forall v w, G Factor [(lbrace, v); (rbrace, w)] NEmpty
| f_set : forall v w a x, G Elements a x -> G Factor ((lbrace, v) :: a ++ [(rbrace, w)]) x
| f_not : forall v a x, G Factor a x -> G Factor ((not_, v) :: a) (NNot x)
| f_des : forall a d, G Desig a d -> isstd d = false -> G Factor a d
| f_call : forall a d v b l w, G Desig a d -> isstd d = false -> isvar d = false -> G Args b (NSeq l) ->
    G Factor (a ++ (lparen, v) :: b ++ [(rparen, w)]) (NCall d l)
| f_call0 : forall a d v w, G Desig a d -> isstd d = false -> isvar d = false ->
    G Factor (a ++ [(lparen, v); (rparen, w)]) (NCall d [])
| f_std : forall a d v b l w, G Desig a d -> isstd d = true -> isvar d = false -> G Args b (NSeq l) ->
    G Factor (a ++ (lparen, v) :: b ++ [(rparen, w)]) (NStd d l)
| f_std0 : forall a d v w, G Desig a d -> isstd d = true -> isvar d = false ->
    G Factor (a ++ [(lparen, v); (rparen, w)]) (NStd d [])
(* Set = "{" [Element {"," Element}] "}".  Element = Expression [".." Expression].  A set is the union of its elements. *)
| es_one : forall a x, G Element a x -> G Elements a x
| es_more : forall a x v b y, G Elements a x -> G Element b y -> G Elements (a ++ (comma, v) :: b) (NOp plus x y)
| e_one : forall a x, G Expr a x -> G Element a (NElem x)
| e_range : forall a x v b y, G Expr a x -> G Expr b y -> G Element (a ++ (upto, v) :: b) (NRange x y)
(* Qualident = [ident "."] ident. *)
| q_id : forall x, ismod x = false -> G Qual [(ident, x)] (NQual None x)
| q_mod : forall m v x, ismod m = true -> G Qual [(ident, m); (period, v); (ident, x)] (NQual (Some m) x)
(* Designator = Qualident {"." ident | "[" ExpressionList "]" | "^" | "(" Qualident ")"}. *)
| d_qual : forall a q, G Qual a q -> G Desig a q
| d_field : forall a d v x, G Desig a d -> G Desig (a ++ [(period, v); (ident, x)]) (NField d x)
| d_super : forall a d v, G Desig a d -> is_tfield d = true -> G Desig (a ++ [(arrow, v)]) (NSuper d)
| d_deref : forall a d v, G Desig a d -> is_tfield d = false -> G Desig (a ++ [(arrow, v)]) (NDeref d)
| d_index : forall a d v b d' w, G Desig a d -> G (Index d) b d' -> G Desig (a ++ (lbrak, v) :: b ++ [(rbrak, w)]) d'
| d_guard : forall a d v b t w, G Desig a d -> isvar d = true -> G Qual b t ->
    G Desig (a ++ (lparen, v) :: b ++ [(rparen, w)]) (NGuard d t)
(* ExpressionList = Expression {"," Expression}; a[i, j] is a[i][j]. *)
| i_one : forall d a x, G Expr a x -> G (Index d) a (NIndex d x)
| i_more : forall d a d' v b y, G (Index d) a d' -> G Expr b y -> G (Index d) (a ++ (comma, v) :: b) (NIndex d' y)
| a_one : forall a x, G Expr a x -> G Args a (NSeq [x])
| a_more : forall a l v b y, G Args a (NSeq l) -> G Expr b y -> G Args (a ++ (comma, v) :: b) (NSeq (l ++ [y]))
(* StatementSequence = Statement {";" Statement}. *)
| q_one : forall d a x, G (Stat d) a x -> G (Seq d) a (NSeq (snoc [] x))
| q_more : forall d a l v b y, G (Seq d) a (NSeq l) -> G (Stat d) b y -> G (Seq d) (a ++ (semicolon, v) :: b) (NSeq (snoc l y))
(* Statement = [ ... ]. *)
| st_empty : forall d, G (Stat d) [] NNone
| st_assign : forall d a x v b e, G Desig a x -> G Expr b e -> G (Stat d) (a ++ (becomes, v) :: b) (NAssign x e)
| st_call : forall d a x v b l w, G Desig a x -> isstd x = false -> isvar x = false -> G Args b (NSeq l) ->
    G (Stat d) (a ++ (lparen, v) :: b ++ [(rparen, w)]) (NCall x l)
| st_call0 : forall d a x v w, G Desig a x -> isstd x = false -> isvar x = false ->
    G (Stat d) (a ++ [(lparen, v); (rparen, w)]) (NCall x [])
| st_proc : forall d a x, G Desig a x -> isstd x = false -> G (Stat d) a (NCall x [])
| st_std : forall d a x v b l w, G Desig a x -> isstd x = true -> isvar x = false -> G Args b (NSeq l) ->
    G (Stat d) (a ++ (lparen, v) :: b ++ [(rparen, w)]) (NStd x l)
| st_std0 : forall d a x v w, G Desig a x -> isstd x = true -> isvar x = false ->
    G (Stat d) (a ++ [(lparen, v); (rparen, w)]) (NStd x [])
| st_if : forall d v a x b l e y w, G (Arm d) a x -> G (Elsifs d) b (NSeq l) -> G (Else d) e y ->
    G (Stat d) ((if_, v) :: a ++ b ++ e ++ [(end_, w)]) (NIf (x :: l) y)
| st_case : forall d v a x w b l e y u, G Expr a x -> G (Cases d) b (NSeq l) -> G (Else d) e y ->
    G (Stat d) ((case_, v) :: a ++ (of_, w) :: b ++ e ++ [(end_, u)]) (NCase x l y)
| st_while : forall d v a x w b y u, G Expr a x -> G (Seq d) b y ->
    G (Stat d) ((while_, v) :: a ++ (do_, w) :: b ++ [(end_, u)]) (NWhile x y)
| st_repeat : forall d v a x w b y, G (Seq d) a x -> G Expr b y ->
    G (Stat d) ((repeat_, v) :: a ++ (until_, w) :: b) (NRepeat x y)
| st_for : forall d v q x v1 a e1 v2 b e2 c s v3 e y u, G Qual q x -> G Expr a e1 -> G Expr b e2 -> G By c s -> G (Seq d) e y ->
    G (Stat d) ((for_, v) :: q ++ (becomes, v1) :: a ++ (to_, v2) :: b ++ c ++ (do_, v3) :: e ++ [(end_, u)]) (NFor x e1 e2 s y)
| st_loop : forall d v a x w, G (Seq (d + 1)) a x -> G (Stat d) ((loop_, v) :: a ++ [(end_, w)]) (NLoop x)
| st_with : forall d v a l e y w, G (Withs d) a (NSeq l) -> G (Else d) e y ->
    G (Stat d) ((with_, v) :: a ++ e ++ [(end_, w)]) (NWith l y)
| st_exit : forall d v, d <> 0 -> G (Stat d) [(exit_, v)] NExit
| st_return0 : forall d v, G (Stat d) [(return_, v)] (NReturn NNone)
| st_return : forall d v a x, G Expr a x -> G (Stat d) ((return_, v) :: a) (NReturn x)
(* IF Expression THEN StatementSequence {ELSIF Expression THEN StatementSequence} [ELSE StatementSequence] END *)
| m_arm : forall d a x v b y, G Expr a x -> G (Seq d) b y -> G (Arm d) (a ++ (then_, v) :: b) (NArm x y)
| ei_none : forall d, G (Elsifs d) [] (NSeq [])
| ei_more : forall d a l v b x, G (Elsifs d) a (NSeq l) -> G (Arm d) b x -> G (Elsifs d) (a ++ (elsif_, v) :: b) (NSeq (l ++ [x]))
| el_none : forall d, G (Else d) [] NNone
| el_some : forall d v a x, G (Seq d) a x -> G (Else d) ((else_, v) :: a) x
(* Case {"|" Case}; Case = [CaseLabels {"," CaseLabels} ":" StatementSequence]. *)
| cs_one : forall d a x, G (Case d) a x -> G (Cases d) a (NSeq (snoc [] x))
| cs_more : forall d a l v b y, G (Cases d) a (NSeq l) -> G (Case d) b y -> G (Cases d) (a ++ (bar, v) :: b) (NSeq (snoc l y))
| c_none : forall d, G (Case d) [] NNone
| c_some : forall d a l v b y, G Labels a (NSeq l) -> G (Seq d) b y -> G (Case d) (a ++ (colon, v) :: b) (NDo l y)
| l_one : forall a x, G Element a x -> G Labels a (NSeq [x])
| l_more : forall a l v b y, G Labels a (NSeq l) -> G Element b y -> G Labels (a ++ (comma, v) :: b) (NSeq (l ++ [y]))
| b_none : G By [] NNone
| b_some : forall v a x, G Expr a x -> G By ((by_, v) :: a) x
(* WITH Guard DO StatementSequence {"|" Guard DO StatementSequence} [ELSE StatementSequence] END.  Guard = Qualident ":" Qualident. *)
| w_one : forall d a x, G (Guarded d) a x -> G (Withs d) a (NSeq [x])
| w_more : forall d a l v b x, G (Withs d) a (NSeq l) -> G (Guarded d) b x -> G (Withs d) (a ++ (bar, v) :: b) (NSeq (l ++ [x]))
| g_arm : forall d a x v b t w c y, G Qual a x -> G Qual b t -> G (Seq d) c y ->
    G (Guarded d) (a ++ (colon, v) :: b ++ (do_, w) :: c) (NArm (NIs x t) y).
End Grammar.
