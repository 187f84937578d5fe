(** * The parser for modules, declarations and types
    Model of OPP.Mod, procedure by procedure, with its error recovery: CheckMark (62-70), CheckSysFlag (72-85), RecordType (87-142), ArrayType (144-170), PointerType (172-197),
    FormalParameters (199-249), TypeDecl and Type (251-290), Receiver (502-520), ProcedureDeclaration with GetCode, GetParams, Body and TProcDecl (531-671), Block (897-1001),
    Module (1003-1043).  Expressions, qualified identifiers and statements: SynModel.v.

    Simplifications, in addition to those of SynModel.v:
    - Errors recorded: those about syntax, 4 (wrong name at the end), 12, 14, 15, 16, 35, 47 (export inside a procedure), 73 (procedure not allowed inside another).  Errors
      about the meaning of names and types do not change what is read next; imports are found ([OPM.noerr] is then: no error so far).
    - What names denote is a function of the place in the text (the number of symbols still to come).  POINTER TO with an undeclared name reads one name, as qualident does for
      a name that is no module.
    - The variables the loops build lists with are results here; each call costs one unit of [fuel]. *)
From Verif Require Import Base SynSpec SynModel UnitSpec.
Local Open Scope Z_scope.

Section Model.
Variable ismod : nat -> Z -> bool.
Variables isvar isstd istproc : nat -> node -> bool.

Definition at_ (s : st) : nat := length (fst s).
Definition qual (s : st) : node * st := qualident (ismod (at_ s)) s.
Definition syn (m : mode) (s : st) : res (node * st) := parse (ismod (at_ s)) (isvar (at_ s)) (isstd (at_ s)) (istproc (at_ s)) (fuel_for (fst s)) m s.
(** 54-60 ConstExpression *)
Definition expr (s : st) : res (node * st) := syn MExpr s.
(** StatSeq; LoopLevel is 0 outside statements *)
Definition stats (s : st) : res (node * st) := syn (MStat 0 []) s.

(** 62-70, with the name before (sym = ident) *)
Definition CheckMark (lv : nat) (s : st) : identdef * st :=
  let x := val s in
  let s1 := get s in
  if (sym s1 =? times) || (sym s1 =? minus) then
    let s2 := if (0 <? lv)%nat then err 47 s1 else s1 in
    ((x, if sym s1 =? times then Exported else ReadOnly), get s2)
  else ((x, Private), s1).
(** 72-85 *)
Definition CheckSysFlag (s : st) : res (option node * st) :=
  if sym s =? lbrak then let* (e, s1) := expr (get s) in Ok (Some e, check rbrak s1) else Ok (None, s).
(** IF sym = ident THEN qualident(id) ELSE err(ident) END *)
Definition name (s : st) : node * st := if sym s =? ident then qual s else (NBad, err ident s).
(** 92-106 *)
Definition base (s : st) : option node * st :=
  if sym s =? lparen then let (q, s1) := name (get s) in (Some q, check rparen s1) else (None, s).
(** 236-248 *)
Definition result (s : st) : option node * st :=
  if sym s =? colon then let (q, s1) := name (get s) in (Some q, s1) else (None, s).
(** 280-284: after a type *)
Definition after_type (x : Z) : bool := (semicolon <=? x) && (x <=? else_) || (x =? rparen) || (x =? eof).
Fixpoint type_end (l : list tok) (e : list Z) : st :=
  match l with
  | [] => (l, e)
  | t :: r => if after_type (fst t) then (l, e) else if fst t =? ident then (l, 15 :: e) else type_end r (15 :: e)
  end.
Definition list_t (x : tree) : list tree := match x with TList l => l | _ => [] end.
Definition list_n (x : tree) : list identdef := match x with TNames l => l | _ => [] end.
Definition list_i (x : tree) : list Z := match x with TIdents l => l | _ => [] end.
Definition list_c (x : tree) : list Z := match x with TCodes l => l | _ => [] end.
Definition list_m (x : tree) : list (Z * Z) := match x with TImports l => l | _ => [] end.
(** 502-520; sym is after the parenthesis *)
Definition receiver (s : st) : (bool * Z * Z) * st :=
  let byref := sym s =? var_ in
  let s1 := if byref then get s else s in
  let x := val s1 in
  let s2 := check colon (check ident s1) in
  let t := val s2 in
  let s3 := if sym s2 =? ident then get s2 else err ident s2 in
  ((byref, x, t), check rparen s3).

Section Step.
Variable rec : unit_ -> st -> res (tree * st).

(** 144-170 *)
Definition array_type (lv : nat) (s : st) : res (tree * st) :=
  let* (f, s1) := CheckSysFlag s in
  if sym s1 =? of_ then let* (t, s2) := rec (UType lv) (get s1) in Ok (TArray f None t, s2)
  else
    let* (n, s2) := expr s1 in
    if sym s2 =? of_ then let* (t, s3) := rec (UType lv) (get s2) in Ok (TArray f (Some n) t, s3)
    else if sym s2 =? comma then
      let s3 := get s2 in
      if sym s3 =? of_ then Ok (TArray f (Some n) TBad, s3) else let* (t, s4) := rec (UArray lv) s3 in Ok (TArray f (Some n) t, s4)
    else Ok (TArray f (Some n) TBad, err 35 s2).
(** 111-128 and 955-968; the fields: 109-140; the record: 90-142 *)
Definition names (lv : nat) (s : st) : res (tree * st) :=
  let (h, s1) := (if sym s =? ident then let (x, s1) := CheckMark lv s in ([x], s1) else ([], err ident s)) in
  if sym s1 =? comma then let* (l, s2) := rec (UNames lv) (get s1) in Ok (TNames (h ++ list_n l), s2)
  else if sym s1 =? ident then let* (l, s2) := rec (UNames lv) (err comma s1) in Ok (TNames (h ++ list_n l), s2)
  else Ok (TNames h, s1).
Definition fields (lv : nat) (s : st) : res (tree * st) :=
  let* (h, s1) :=
    (if sym s =? ident then
       let* (ns, s1) := rec (UNames lv) s in
       let* (t, s2) := rec (UType lv) (check colon s1) in
       Ok ([TField (list_n ns) t], s2)
     else Ok ([], s)) in
  if sym s1 =? semicolon then let* (l, s2) := rec (UFields lv) (get s1) in Ok (TList (h ++ list_t l), s2)
  else if sym s1 =? ident then let* (l, s2) := rec (UFields lv) (err semicolon s1) in Ok (TList (h ++ list_t l), s2)
  else Ok (TList h, s1).
Definition record_type (lv : nat) (s : st) : res (tree * st) :=
  let* (f, s1) := CheckSysFlag s in
  let (b, s2) := base s1 in
  let* (l, s3) := rec (UFields lv) s2 in
  Ok (TRecord f b (list_t l), s3).
(** 172-197 *)
Definition pointer_type (lv : nat) (s : st) : res (tree * st) :=
  let* (f, s1) := CheckSysFlag s in
  let s2 := check to_ s1 in
  if sym s2 =? ident then let (q, s3) := qual s2 in Ok (TPointer f (TName q), s3)
  else let* (t, s3) := rec (UType lv) s2 in Ok (TPointer f t, s3).
(** 206-220 *)
Definition idents (s : st) : res (tree * st) :=
  let (h, s1) := (if sym s =? ident then ([val s], get s) else ([], err ident s)) in
  if sym s1 =? comma then let* (l, s2) := rec UIdents (get s1) in Ok (TIdents (h ++ list_i l), s2)
  else if sym s1 =? ident then let* (l, s2) := rec UIdents (err comma s1) in Ok (TIdents (h ++ list_i l), s2)
  else if sym s1 =? var_ then let* (l, s2) := rec UIdents (get (err comma s1)) in Ok (TIdents (h ++ list_i l), s2)
  else Ok (TIdents h, s1).
(** 204-233 *)
Definition params (lv : nat) (s : st) : res (tree * st) :=
  let byref := sym s =? var_ in
  let s0 := if byref then get s else s in
  let* (ns, s1) := rec UIdents s0 in
  let* (t, s2) := rec (UType lv) (check colon s1) in
  let p := TParam byref (list_i ns) t in
  if sym s2 =? semicolon then let* (l, s3) := rec (UParams lv) (get s2) in Ok (TList (p :: list_t l), s3)
  else if sym s2 =? ident then let* (l, s3) := rec (UParams lv) (err semicolon s2) in Ok (TList (p :: list_t l), s3)
  else Ok (TList [p], s2).
(** 199-249 *)
Definition formal_parameters (lv : nat) (s : st) : res (tree * st) :=
  let* (l, s1) := (if (sym s =? ident) || (sym s =? var_) then rec (UParams lv) s else Ok (TList [], s)) in
  let (q, s2) := result (check rparen s1) in
  Ok (TSig (list_t l) q, s2).
(** 251-290 *)
Definition type (lv : nat) (s0 : st) : res (tree * st) :=
  let s := resync lparen 12 s0 in
  let* (t, s1) :=
    (if sym s =? ident then let (q, s1) := qual s in Ok (TName q, s1)
     else if sym s =? array_ then rec (UArray lv) (get s)
     else if sym s =? record_ then let* (t, s1) := record_type lv (get s) in Ok (t, check end_ s1)
     else if sym s =? pointer_ then pointer_type lv (get s)
     else if sym s =? procedure_ then
       let* (f, s1) := CheckSysFlag (get s) in
       if sym s1 =? lparen then let* (g, s2) := rec (USig lv) (get s1) in Ok (TProcedure f (Some g), s2) else Ok (TProcedure f None, s1)
     else Ok (TBad, err 12 s)) in
  Ok (t, type_end (fst s1) (snd s1)).

(** 907-918 *)
Definition consts (lv : nat) (s : st) : res (tree * st) :=
  if sym s =? ident then
    let (x, s1) := CheckMark lv s in
    let* (e, s2) :=
      (if sym s1 =? eql then expr (get s1)
       else if sym s1 =? becomes then expr (get (err eql s1))
       else Ok (NNum 1, err eql s1)) in
    let* (l, s3) := rec (UConsts lv) (check semicolon s2) in
    Ok (TList (TConst x e :: list_t l), s3)
  else Ok (TList [], s).
(** 922-950 *)
Definition types (lv : nat) (s : st) : res (tree * st) :=
  if sym s =? ident then
    let (x, s1) := CheckMark lv s in
    let* (t, s2) :=
      (if sym s1 =? eql then rec (UType lv) (get s1)
       else if (sym s1 =? becomes) || (sym s1 =? colon) then rec (UType lv) (get (err eql s1))
       else Ok (TBad, err eql s1)) in
    let* (l, s3) := rec (UTypes lv) (check semicolon s2) in
    Ok (TList (TType x t :: list_t l), s3)
  else Ok (TList [], s).
(** 954-974 *)
Definition vars (lv : nat) (s : st) : res (tree * st) :=
  if sym s =? ident then
    let* (ns, s1) := rec (UNames lv) s in
    let* (t, s2) := rec (UType lv) (check colon s1) in
    let* (l, s3) := rec (UVars lv) (check semicolon s2) in
    Ok (TList (TVar (list_n ns) t :: list_t l), s3)
  else Ok (TList [], s).
(** 904-977 *)
Definition section (k : Z) (n : unit_) (s : st) : res (list tree * st) :=
  if sym s =? k then let* (l, s1) := rec n (get s) in Ok (list_t l, s1) else Ok ([], s).
Definition sections (lv : nat) (s : st) : res (tree * st) :=
  let* (l1, s1) := section const_ (UConsts lv) s in
  let* (l2, s2) := section type_ (UTypes lv) s1 in
  let* (l3, s3) := section var_ (UVars lv) s2 in
  if (sym s3 <? const_) || (sym s3 >? var_) then Ok (TList (l1 ++ l2 ++ l3), s3)
  else let* (l, s4) := rec (USections lv) s3 in Ok (TList (l1 ++ l2 ++ l3 ++ list_t l), s4).
(** 986-993 *)
Definition procs (lv : nat) (s : st) : res (tree * st) :=
  if sym s =? procedure_ then
    let* (x, s1) := rec (UProc lv) (get s) in
    let* (l, s2) := rec (UProcs lv) (check semicolon s1) in
    Ok (TList (x :: list_t l), s2)
  else Ok (TList [], s).
(** 903-1000 *)
Definition block (lv : nat) (s : st) : res (tree * st) :=
  let* (ds, s1) := rec (USections lv) s in
  let* (ps, s2) := rec (UProcs lv) s1 in
  let* (b, s3) := (if sym s2 =? begin_ then let* (b, s3) := stats (get s2) in Ok (Some b, s3) else Ok (None, s2)) in
  Ok (TBlock (list_t ds) (list_t ps) b, check end_ s3).
(** 549-560 *)
Definition codes (s : st) : res (tree * st) :=
  let (h, s1) := (if sym s =? number then ([val s], get s) else ([], s)) in
  if sym s1 =? comma then let* (l, s2) := rec UCodes (get s1) in Ok (TCodes (h ++ list_c l), s2)
  else if sym s1 =? number then let* (l, s2) := rec UCodes (err comma s1) in Ok (TCodes (h ++ list_c l), s2)
  else Ok (TCodes h, s1).
(** 537-563 *)
Definition code (s : st) : res (tree * st) := if sym s =? string_ then Ok (TCode (NStr (val s)), get s) else rec UCodes s.
(** 569-571 *)
Definition heading (lv : nat) (s : st) : res (option tree * st) :=
  if sym s =? lparen then let* (g, s1) := rec (USig lv) (get s) in Ok (Some g, s1) else Ok (None, s).
(** 580-593 *)
Definition body (lv : nat) (x : Z) (s : st) : res (option tree * st) :=
  let* (b, s1) := rec (UBlock lv) (check semicolon s) in
  if sym s1 =? ident then Ok (Some b, get (if val s1 =? x then s1 else err 4 s1)) else Ok (Some b, err ident s1).
(** 639-648: the symbol after PROCEDURE *)
Definition kind (s : st) : pkind * st :=
  if (sym s =? ident) || (sym s =? lparen) then (Plain, s)
  else if sym s =? times then (Star, get s)
  else if sym s =? arrow then (Forward, get s)
  else if sym s =? plus then (Plus, get s)
  else if sym s =? minus then (Minus, get s)
  else (Plain, get (err ident s)).
Definition is_forward (k : pkind) : bool := match k with Forward => true | _ => false end.
Definition is_minus (k : pkind) : bool := match k with Minus => true | _ => false end.
Definition is_system (k : pkind) : bool := match k with Plus | Minus => true | _ => false end.
(** 595-636 *)
Definition bound (lv : nat) (k : pkind) (s : st) : res (tree * st) :=
  let s1 := if (0 <? lv)%nat then err 73 (get s) else get s in
  let (r, s2) := receiver s1 in
  if sym s2 =? ident then
    let (x, s3) := CheckMark lv s2 in
    let* (g, s4) := heading (S lv) s3 in
    let* (b, s5) := (if is_forward k then Ok (None, s4) else body (S lv) (fst x) s4) in
    Ok (TProc k (Some r) x g b, s5)
  else Ok (TBad, err ident s2).
(** 638-671 *)
Definition procedure (lv : nat) (s0 : st) : res (tree * st) :=
  let (k, s) := kind s0 in
  if sym s =? lparen then bound lv k s
  else if sym s =? ident then
    let (x, s1) := CheckMark lv s in
    let s2 := if (is_system k || match snd x with Private => false | _ => true end) && (0 <? lv)%nat then err 73 s1 else s1 in
    let* (g, s3) := heading (S lv) s2 in
    let* (b, s4) :=
      (if is_minus k then let* (c, s4) := code s3 in Ok (Some c, s4)
       else if is_forward k then Ok (None, s3)
       else body (S lv) (fst x) s3) in
    Ok (TProc k None x g b, s4)
  else Ok (TBad, err ident s).
(** 1014-1027 *)
Definition imports (s : st) : res (tree * st) :=
  let (h, s1) :=
    (if sym s =? ident then
       let a := val s in
       let s1 := get s in
       if sym s1 =? becomes then
         let s2 := get s1 in
         if sym s2 =? ident then ([(a, val s2)], get s2) else ([(a, a)], err ident s2)
       else ([(a, a)], s1)
     else ([], err ident s)) in
  if sym s1 =? comma then let* (l, s2) := rec UImports (get s1) in Ok (TImports (h ++ list_m l), s2)
  else if sym s1 =? ident then let* (l, s2) := rec UImports (err comma s1) in Ok (TImports (h ++ list_m l), s2)
  else Ok (TImports h, s1).

Definition ustep (u : unit_) (s : st) : res (tree * st) :=
  match u with
  | UType lv => type lv s | UArray lv => array_type lv s | UNames lv => names lv s | UIdents => idents s | UFields lv => fields lv s
  | UParams lv => params lv s | USig lv => formal_parameters lv s
  | USections lv => sections lv s | UConsts lv => consts lv s | UTypes lv => types lv s | UVars lv => vars lv s
  | UProcs lv => procs lv s | UProc lv => procedure lv s | UBlock lv => block lv s | UCodes => codes s | UImports => imports s
  end.
End Step.

Fixpoint uparse (fuel : nat) (u : unit_) (s : st) : res (tree * st) :=
  match fuel with O => Fuel | S f => ustep (uparse f) u s end.

(** 1003-1043; the fuel suffices (C74) *)
Definition ufuel (s : st) : nat := (20 * length (fst s) + 20)%nat.
Definition module_rest (x : Z) (l : list (Z * Z)) (s : st) : res (tree * st) :=
  match snd s with
  | [] =>
      let* (b, s1) := uparse (ufuel s) (UBlock 0) s in
      let s2 := if sym s1 =? ident then get (if val s1 =? x then s1 else err 4 s1) else err ident s1 in
      Ok (TModule x l b, if sym s2 =? period then s2 else err period s2)
  | _ => Ok (TBad, s)
  end.
Definition module (ts : list tok) : res (tree * st) :=
  let s := (ts, []) in
  let s1 := if sym s =? module_ then get s else err 16 s in
  if sym s1 =? ident then
    let x := val s1 in
    let s2 := check semicolon (get s1) in
    if sym s2 =? import_ then
      let s3 := get s2 in
      let* (l, s4) := uparse (ufuel s3) UImports s3 in
      module_rest x (list_m l) (check semicolon s4)
    else module_rest x [] s2
  else Ok (TBad, err ident s1).
End Model.
