(** * The parser for statements and expressions
    Model of OPP.Mod, function by function: qualident (33-54), selector (292-343), ActualParameters (345-362),
    StandProcCall (364-389), Element and Sets (391-415), Factor (417-460), Term (462-469), SimpleExpression (471-483),
    Expression (485-505), CaseLabelList (673-713), StatSeq (715-934) with CasePart (719-750), including their error
    recovery.

    Simplifications:
    - The scanner is a list of symbols; after its end come eof symbols for ever (OPS.Get at the end of the file, C36).
    - Only errors about syntax are recorded (with their numbers), and errors 46 (EXIT outside LOOP) and 127 (a module
      name where a designator is expected, OPB.Mod 34).  Those about types and the like (OPB, and 50-135 here) do not change
      what is read next and are left out; so the trees are those before OPB's checks, constant folding (C39),
      automatic dereferencing, and the expansion of FOR into WHILE (C47).
    - The decisions the parser takes from the kind of a designator are those of the grammar's functions:
      [isvar x] stands for (x^.class < Nconst) & (x^.typ^.form # ProcTyp) & ((x^.obj = NIL) OR (x^.obj^.mode # TProc))
      (325-326), [isstd x] for (x^.class = Nproc) & (x^.obj^.mode = SProc) (424), [istproc x] for (obj # NIL) & (obj^.mode = TProc) (309),
      [ismod x] for (obj # NIL) & (obj^.mode = Mod) (37).
    - The mutually recursive procedures, and their loops with the variables these change, are the cases of one
      function ([mode]); each call of one of them costs one unit of [fuel]. *)
From Verif Require Import Base SynSpec.
Local Open Scope Z_scope.

(** Where the parser is; the loops have their accumulated results as parameters. *)
Inductive mode :=
| MExpr | MSimple | MSimpleL (x : node) | MTerm | MTermL (x : node) | MFactor
| MElement | MElementsL (x : node) | MSel (x : node) | MIdx (x : node) | MArgsL (acc : list node) | MStd (x : node)
| MStat (lv : Z) (acc : list node) | MArm (lv : Z) | MElsifL (lv : Z) (acc : list node) | MElse (lv : Z)
| MCasesL (lv : Z) (acc : list node) | MLabelsL (acc : list node) | MWithsL (lv : Z) (acc : list node).

(** Symbols to come, and errors so far. *)
Definition st := (list tok * list Z)%type.

Section Model.
Variable ismod : Z -> bool.
Variables isvar isstd istproc : node -> bool.

(** The variable sym, and the value that comes with the symbol. *)
Definition sym (s : st) : Z := match fst s with [] => eof | t :: _ => fst t end.
Definition val (s : st) : Z := match fst s with [] => 0 | t :: _ => snd t end.
(** OPS.Get(sym) *)
Definition get (s : st) : st := (tl (fst s), snd s).
(** 24-26 err *)
Definition err (n : Z) (s : st) : st := (fst s, n :: snd s).
(** 28-31 CheckSym *)
Definition check (n : Z) (s : st) : st := if sym s =? n then get s else err n s.
(** REPEAT OPS.Get(sym) UNTIL sym >= n, when sym < n *)
Fixpoint skip_to (n : Z) (l : list tok) : list tok :=
  match l with [] => [] | t :: r => if fst t <? n then skip_to n r else l end.
(** IF sym < n THEN err(e); REPEAT OPS.Get(sym) UNTIL sym >= n END *)
Definition resync (n e : Z) (s : st) : st := if sym s <? n then (skip_to n (fst s), e :: snd s) else s.

(** 33-54 *)
Definition qualident (s : st) : node * st :=
  let x := val s in
  let s1 := get s in
  if ismod x then
    if sym s1 =? period then
      let s2 := get s1 in
      if sym s2 =? ident then (NQual (Some x) (val s2), get s2) else (NBad, err ident s2)
    else (NBad, err 127 s1)
  else (NQual None x, s1).

Section Step.
Variable rec : mode -> st -> res (node * st).

(** 485-505 *)
Definition expression (s : st) : res (node * st) :=
  let* (x, s1) := rec MSimple s in
  if (eql <=? sym s1) && (sym s1 <=? geq) then
    let* (y, s2) := rec MSimple (get s1) in Ok (NOp (sym s1) x y, s2)
  else if sym s1 =? in_ then
    let* (y, s2) := rec MSimple (get s1) in Ok (NIn x y, s2)
  else if sym s1 =? is_ then
    let s2 := get s1 in
    if sym s2 =? ident then let (t, s3) := qualident s2 in Ok (NIs x t, s3) else Ok (x, err ident s2)
  else Ok (x, s1).

(** 471-483 *)
Definition simple (s : st) : res (node * st) :=
  let* (x, s1) :=
    (if sym s =? minus then let* (x, s1) := rec MTerm (get s) in Ok (NNeg x, s1)
     else if sym s =? plus then let* (x, s1) := rec MTerm (get s) in Ok (NPos x, s1)
     else rec MTerm s) in
  rec (MSimpleL x) s1.
Definition simple_loop (x : node) (s : st) : res (node * st) :=
  if (plus <=? sym s) && (sym s <=? or_) then
    let* (y, s1) := rec MTerm (get s) in rec (MSimpleL (NOp (sym s) x y)) s1
  else Ok (x, s).

(** 462-469 *)
Definition term (s : st) : res (node * st) := let* (x, s1) := rec MFactor s in rec (MTermL x) s1.
Definition term_loop (x : node) (s : st) : res (node * st) :=
  if (times <=? sym s) && (sym s <=? and_) then
    let* (y, s1) := rec MFactor (get s) in rec (MTermL (NOp (sym s) x y)) s1
  else Ok (x, s).

(** A list loop's decision: a comma, a forgotten comma, or the end (354-357, 378-381, 405-408). *)
Definition more (s : st) : option st :=
  if sym s =? comma then Some (get s)
  else if (lparen <=? sym s) && (sym s <=? ident) then Some (err comma s)
  else None.

(** 391-399 *)
Definition element (s : st) : res (node * st) :=
  let* (x, s1) := rec MExpr s in
  if sym s1 =? upto then let* (y, s2) := rec MExpr (get s1) in Ok (NRange x y, s2) else Ok (NElem x, s1).
(** 401-415; the loop *)
Definition elements_loop (x : node) (s : st) : res (node * st) :=
  match more s with
  | Some s1 => let* (y, s2) := rec MElement s1 in rec (MElementsL (NOp plus x y)) s2
  | None => Ok (x, s)
  end.
Definition sets (s : st) : res (node * st) :=
  if sym s =? rbrace then Ok (NEmpty, check rbrace s)
  else
    let* (x, s1) := rec MElement s in
    let* (x, s2) := rec (MElementsL x) s1 in
    Ok (x, check rbrace s2).

(** 292-343 *)
Definition selector (x : node) (s : st) : res (node * st) :=
  if sym s =? lbrak then
    let* (x, s1) := rec (MIdx x) (get s) in rec (MSel x) (check rbrak s1)
  else if sym s =? period then
    let s1 := get s in
    if sym s1 =? ident then
      let f := NField x (val s1) in
      let s2 := get s1 in
      if istproc f && (sym s2 =? arrow) then rec (MSel (NSuper f)) (get s2) else rec (MSel f) s2
    else rec (MSel x) (err ident s1)
  else if sym s =? arrow then rec (MSel (NDeref x)) (get s)
  else if (sym s =? lparen) && isvar x then
    let s1 := get s in
    if sym s1 =? ident then let (t, s2) := qualident s1 in rec (MSel (NGuard x t)) (check rparen s2)
    else rec (MSel x) (check rparen (err ident s1))
  else Ok (x, s).
(** 297-301 *)
Definition index_loop (x : node) (s : st) : res (node * st) :=
  let* (y, s1) := rec MExpr s in
  if sym s1 =? comma then rec (MIdx (NIndex x y)) (get s1) else Ok (NIndex x y, s1).

(** 348-358; the loop *)
Definition args_loop (acc : list node) (s : st) : res (node * st) :=
  let* (y, s1) := rec MExpr s in
  match more s1 with Some s2 => rec (MArgsL (acc ++ [y])) s2 | None => Ok (NSeq (acc ++ [y]), s1) end.
Definition list_of (x : node) : list node := match x with NSeq l => l | _ => [] end.
(** 345-362, and the parentheses around (427-431, 779-781) *)
Definition call (x : node) (s : st) : res (node * st) :=      (* sym = lparen *)
  let s1 := get s in
  if sym s1 =? rparen then Ok (NCall x [], check rparen s1)
  else let* (l, s2) := rec (MArgsL []) s1 in Ok (NCall x (list_of l), check rparen s2).

(** 364-389 *)
Definition std_call (x : node) (s : st) : res (node * st) :=
  if sym s =? lparen then
    let s1 := get s in
    if sym s1 =? rparen then Ok (NStd x [], get s1)
    else let* (l, s2) := rec (MArgsL []) s1 in Ok (NStd x (list_of l), check rparen s2)
  else Ok (NStd x [], err lparen s).

(** 417-460 *)
Definition factor (s0 : st) : res (node * st) :=
  let s := resync lparen 13 s0 in
  if sym s =? ident then
    let (q, s1) := qualident s in
    let* (x, s2) := rec (MSel q) s1 in
    if isstd x then rec (MStd x) s2
    else if sym s2 =? lparen then call x s2
    else Ok (x, s2)
  else if sym s =? number then Ok (NNum (val s), get s)
  else if sym s =? string_ then Ok (NStr (val s), get s)
  else if sym s =? nil_ then Ok (NNil, get s)
  else if sym s =? lparen then
    let* (x, s1) := rec MExpr (get s) in Ok (x, check rparen s1)
  else if sym s =? lbrak then
    let* (x, s1) := rec MExpr (err lparen (get s)) in Ok (x, check rparen s1)
  else if sym s =? lbrace then sets (get s)
  else if sym s =? not_ then
    let* (x, s1) := rec MFactor (get s) in Ok (NNot x, s1)
  else Ok (NBad, get (err 13 s)).

(** 675-712; the loop *)
Definition labels_loop (acc : list node) (s : st) : res (node * st) :=
  let* (x, s1) := rec MExpr s in
  let* (y, s2) :=
    (if sym s1 =? upto then let* (y, s2) := rec MExpr (get s1) in Ok (NRange x y, s2) else Ok (NElem x, s1)) in
  if sym s2 =? comma then rec (MLabelsL (acc ++ [y])) (get s2)
  else if (sym s2 =? number) || (sym s2 =? ident) then rec (MLabelsL (acc ++ [y])) (err comma s2)
  else Ok (NSeq (acc ++ [y]), s2).

(** Expression; THEN; StatSeq (788-789, 792-793) *)
Definition arm (lv : Z) (s : st) : res (node * st) :=
  let* (x, s1) := rec MExpr s in
  let* (y, s2) := rec (MStat lv []) (check then_ s1) in
  Ok (NArm x y, s2).
(** 791-794 *)
Definition elsif_loop (lv : Z) (acc : list node) (s : st) : res (node * st) :=
  if sym s =? elsif_ then
    let* (x, s1) := rec (MArm lv) (get s) in rec (MElsifL lv (acc ++ [x])) s1
  else Ok (NSeq acc, s).
(** IF sym = OPS.else THEN OPS.Get(sym); StatSeq(y) ELSE y := NIL END *)
Definition else_part (lv : Z) (s : st) : res (node * st) :=
  if sym s =? else_ then rec (MStat lv []) (get s) else Ok (NNone, s).

(** 726-733 *)
Definition cases_loop (lv : Z) (acc : list node) (s : st) : res (node * st) :=
  let* (x, s1) :=
    (if sym s <? bar then
       let* (l, s1) := rec (MLabelsL []) s in
       let* (y, s2) := rec (MStat lv []) (check colon s1) in
       Ok (NDo (list_of l) y, s2)
     else Ok (NNone, s)) in
  if sym s1 =? bar then rec (MCasesL lv (snoc acc x)) (get s1) else Ok (NSeq (snoc acc x), s1).

(** 866-892 *)
Definition withs_loop (lv : Z) (acc : list node) (s : st) : res (node * st) :=
  let (g, s1) :=
    (if sym s =? ident then
       let (x, s1) := qualident s in
       let s2 := check colon s1 in
       if sym s2 =? ident then let (t, s3) := qualident s2 in (NIs x t, s3) else (x, err ident s2)
     else (NBad, err ident s)) in
  let* (y, s2) := rec (MStat lv []) (check do_ s1) in
  if sym s2 =? bar then rec (MWithsL lv (acc ++ [NArm g y])) (get s2)
  else Ok (NSeq (acc ++ [NArm g y]), s2).

(** One statement: 766-924; NNone if there is none. *)
Definition statement (lv : Z) (s : st) : res (node * st) :=
  if sym s =? ident then
    let (q, s1) := qualident s in
    let* (x, s2) := rec (MSel q) s1 in
    if sym s2 =? becomes then
      let* (y, s3) := rec MExpr (get s2) in Ok (NAssign x y, s3)
    else if sym s2 =? eql then
      let* (y, s3) := rec MExpr (get (err becomes s2)) in Ok (NAssign x y, s3)
    else if isstd x then rec (MStd x) s2
    else if sym s2 =? lparen then call x s2
    else Ok (NCall x [], s2)
  else if sym s =? if_ then
    let* (x, s1) := rec (MArm lv) (get s) in
    let* (l, s2) := rec (MElsifL lv []) s1 in
    let* (e, s3) := rec (MElse lv) s2 in
    Ok (NIf (x :: list_of l) e, check end_ s3)
  else if sym s =? case_ then
    let* (x, s1) := rec MExpr (get s) in
    let* (l, s2) := rec (MCasesL lv []) (check of_ s1) in
    let* (e, s3) := rec (MElse lv) s2 in
    Ok (NCase x (list_of l) e, check end_ s3)
  else if sym s =? while_ then
    let* (x, s1) := rec MExpr (get s) in
    let* (y, s2) := rec (MStat lv []) (check do_ s1) in
    Ok (NWhile x y, check end_ s2)
  else if sym s =? repeat_ then
    let* (x, s1) := rec (MStat lv []) (get s) in
    if sym s1 =? until_ then let* (y, s2) := rec MExpr (get s1) in Ok (NRepeat x y, s2)
    else Ok (NRepeat x NBad, err until_ s1)
  else if sym s =? for_ then
    let s1 := get s in
    if sym s1 =? ident then
      let (q, s2) := qualident s1 in
      let* (a, s3) := rec MExpr (check becomes s2) in
      let* (b, s4) := rec MExpr (check to_ s3) in
      let* (c, s5) := (if sym s4 =? by_ then rec MExpr (get s4) else Ok (NNone, s4)) in
      let* (y, s6) := rec (MStat lv []) (check do_ s5) in
      Ok (NFor q a b c y, check end_ s6)
    else Ok (NNone, err ident s1)
  else if sym s =? loop_ then
    let* (x, s1) := rec (MStat (lv + 1) []) (get s) in Ok (NLoop x, check end_ s1)
  else if sym s =? with_ then
    let* (l, s1) := rec (MWithsL lv []) (get s) in
    let* (e, s2) := rec (MElse lv) s1 in
    Ok (NWith (list_of l) e, check end_ s2)
  else if sym s =? exit_ then
    let s1 := get s in Ok (NExit, if lv =? 0 then err 46 s1 else s1)
  else if sym s =? return_ then
    let s1 := get s in
    if sym s1 <? semicolon then let* (x, s2) := rec MExpr s1 in Ok (NReturn x, s2) else Ok (NReturn NNone, s1)
  else Ok (NNone, s).

(** 762-933 *)
Definition stat_loop (lv : Z) (acc : list node) (s : st) : res (node * st) :=
  let* (x, s1) := statement lv (resync ident 14 s) in
  if sym s1 =? semicolon then rec (MStat lv (snoc acc x)) (get s1)
  else if (sym s1 <=? ident) || ((if_ <=? sym s1) && (sym s1 <=? return_)) then rec (MStat lv (snoc acc x)) (err semicolon s1)
  else Ok (NSeq (snoc acc x), s1).

Definition step (m : mode) (s : st) : res (node * st) :=
  match m with
  | MExpr => expression s | MSimple => simple s | MSimpleL x => simple_loop x s
  | MTerm => term s | MTermL x => term_loop x s | MFactor => factor s
  | MElement => element s | MElementsL x => elements_loop x s
  | MSel x => selector x s | MIdx x => index_loop x s | MArgsL acc => args_loop acc s | MStd x => std_call x s
  | MStat lv acc => stat_loop lv acc s | MArm lv => arm lv s | MElsifL lv acc => elsif_loop lv acc s | MElse lv => else_part lv s
  | MCasesL lv acc => cases_loop lv acc s | MLabelsL acc => labels_loop acc s | MWithsL lv acc => withs_loop lv acc s
  end.
End Step.

Fixpoint parse (fuel : nat) (m : mode) (s : st) : res (node * st) :=
  match fuel with O => Fuel | S f => step (parse f) m s end.

(** Parse a whole list of symbols; the fuel suffices (C67). *)
Definition fuel_for (l : list tok) : nat := (20 * length l + 20)%nat.
Definition parse_statements (l : list tok) : res (node * st) := parse (fuel_for l) (MStat 0 []) (l, []).
Definition parse_expression (l : list tok) : res (node * st) := parse (fuel_for l) MExpr (l, []).
End Model.
