(** * The grammar of Oberon-2 modules
    The productions of the Oberon-2 report (Moessenboeck and Wirth, appendix B) for modules, declarations and types, with the extensions the compiler documents: system flags
    in brackets, and the procedure marks * (for procedure variables), + (interrupt) and - (code).  Expressions, qualified identifiers and statements are those of
    SynSpec.v; the kinds of symbols are numbered as there.

    [D n ts rest x]: the symbols [ts] begin with an [n], after it come the symbols [rest], and its tree is [x].

    What names denote depends on the declarations before.  It is given by arbitrary functions of the place in the text; a place is the number of symbols that are still to
    come.  Level 0 is the module, procedures nest from level 1; export marks, type-bound procedures and the marks + and - are for level 0 only. *)
From Verif Require Import Base SynSpec.
Local Open Scope Z_scope.

Notation array_ := 54 (only parsing). Notation record_ := 55 (only parsing). Notation pointer_ := 56 (only parsing). Notation begin_ := 57 (only parsing).
Notation const_ := 58 (only parsing). Notation type_ := 59 (only parsing). Notation var_ := 60 (only parsing). Notation procedure_ := 61 (only parsing).
Notation import_ := 62 (only parsing). Notation module_ := 63 (only parsing).

Inductive mark := Private | Exported | ReadOnly.
(** PROCEDURE, PROCEDURE*, PROCEDURE^, PROCEDURE+, PROCEDURE- *)
Inductive pkind := Plain | Star | Forward | Plus | Minus.
Notation identdef := (Z * mark)%type.

Inductive tree :=
(* types: name; array with its length (open without); record; pointer; procedure *)
| TName (q : node)
| TArray (flag : option node) (n : option node) (t : tree)
| TRecord (flag : option node) (base : option node) (fields : list tree)
| TPointer (flag : option node) (t : tree)
| TProcedure (flag : option node) (sig : option tree)
(* fields; parameters; heading *)
| TField (names : list identdef) (t : tree)
| TParam (byref : bool) (names : list Z) (t : tree)
| TSig (params : list tree) (result : option node)
(* declarations *)
| TConst (x : identdef) (e : node)
| TType (x : identdef) (t : tree)
| TVar (names : list identdef) (t : tree)
| TProc (k : pkind) (receiver : option (bool * Z * Z)) (x : identdef) (sig : option tree) (body : option tree)
| TCode (c : node)
| TCodes (l : list Z)
| TBlock (decls procs : list tree) (body : option node)
| TModule (x : Z) (imports : list (Z * Z)) (b : tree)
(* lists *)
| TList (l : list tree) | TNames (l : list identdef) | TIdents (l : list Z) | TImports (l : list (Z * Z))
| TBad.

(** Nonterminals; [lv]: the level. *)
Inductive unit_ :=
| UType (lv : nat) | UArray (lv : nat) | UNames (lv : nat) | UIdents | UFields (lv : nat) | UParams (lv : nat) | USig (lv : nat)
| USections (lv : nat) | UConsts (lv : nat) | UTypes (lv : nat) | UVars (lv : nat) | UProcs (lv : nat) | UProc (lv : nat) | UBlock (lv : nat)
| UCodes | UImports.

Section Grammar.
(** The meaning of names at each place. *)
Variable ismod : nat -> Z -> bool.
Variables isvar isstd istproc : nat -> node -> bool.

(** A piece of the grammar of SynSpec.v before [rest]. *)
Definition piece (n : nt) (ts rest : list tok) (x : node) : Prop :=
  exists a, ts = a ++ rest /\ G (ismod (length ts)) (isvar (length ts)) (isstd (length ts)) (istproc (length ts)) n a x.
Notation E := (piece Expr).
Notation Q := (piece Qual).
Notation S := (piece (Seq 0)).

(* IdentDef = ident ["*" | "-"]. *)
Inductive Def (lv : nat) : list tok -> list tok -> identdef -> Prop :=
| def_private : forall x rest, Def lv ((ident, x) :: rest) rest (x, Private)
| def_export : forall x v rest, lv = 0%nat -> Def lv ((ident, x) :: (times, v) :: rest) rest (x, Exported)
| def_readonly : forall x v rest, lv = 0%nat -> Def lv ((ident, x) :: (minus, v) :: rest) rest (x, ReadOnly).
(* Flag = ["[" ConstExpression "]"]. *)
Inductive Flag : list tok -> list tok -> option node -> Prop :=
| flag_none : forall ts, Flag ts ts None
| flag_some : forall v w ts rest e, E ts ((rbrak, w) :: rest) e -> Flag ((lbrak, v) :: ts) rest (Some e).
(* Result = [":" Qualident]. *)
Inductive Result : list tok -> list tok -> option node -> Prop :=
| result_none : forall ts, Result ts ts None
| result_some : forall v ts rest q, Q ts rest q -> Result ((colon, v) :: ts) rest (Some q).
(* Base = ["(" Qualident ")"]. *)
Inductive Base : list tok -> list tok -> option node -> Prop :=
| base_none : forall ts, Base ts ts None
| base_some : forall v w ts rest q, Q ts ((rparen, w) :: rest) q -> Base ((lparen, v) :: ts) rest (Some q).
(* Receiver = "(" [VAR] ident ":" ident ")", the first parenthesis read. *)
Inductive Receiver : list tok -> list tok -> bool * Z * Z -> Prop :=
| receiver_val : forall x v t w rest, Receiver ((ident, x) :: (colon, v) :: (ident, t) :: (rparen, w) :: rest) rest (false, x, t)
| receiver_var : forall u x v t w rest, Receiver ((var_, u) :: (ident, x) :: (colon, v) :: (ident, t) :: (rparen, w) :: rest) rest (true, x, t).
Inductive Kind : list tok -> list tok -> pkind -> Prop :=
| kind_plain : forall ts, Kind ts ts Plain
| kind_star : forall v ts, Kind ((times, v) :: ts) ts Star
| kind_forward : forall v ts, Kind ((arrow, v) :: ts) ts Forward
| kind_plus : forall v ts, Kind ((plus, v) :: ts) ts Plus
| kind_minus : forall v ts, Kind ((minus, v) :: ts) ts Minus.
(* Import = ident [":=" ident]: the name used here and the module's. *)
Inductive Import : list tok -> list tok -> Z * Z -> Prop :=
| import_same : forall x rest, Import ((ident, x) :: rest) rest (x, x)
| import_alias : forall x v y rest, Import ((ident, x) :: (becomes, v) :: (ident, y) :: rest) rest (x, y).

Inductive D : unit_ -> list tok -> list tok -> tree -> Prop :=
(* Type = Qualident | ARRAY ArrayType | RECORD Flag ["(" Qualident ")"] Fields END | POINTER Flag TO Type | PROCEDURE Flag [FormalPars]. *)
| t_name : forall lv ts rest q, Q ts rest q -> D (UType lv) ts rest (TName q)
| t_array : forall lv v ts rest t, D (UArray lv) ts rest t -> D (UType lv) ((array_, v) :: ts) rest t
| t_record : forall lv v w ts t1 t2 rest f b l, Flag ts t1 f -> Base t1 t2 b -> D (UFields lv) t2 ((end_, w) :: rest) (TList l) ->
    D (UType lv) ((record_, v) :: ts) rest (TRecord f b l)
| t_pointer : forall lv v w ts t1 rest f t, Flag ts ((to_, w) :: t1) f -> D (UType lv) t1 rest t -> D (UType lv) ((pointer_, v) :: ts) rest (TPointer f t)
| t_proc0 : forall lv v ts rest f, Flag ts rest f -> D (UType lv) ((procedure_, v) :: ts) rest (TProcedure f None)
| t_proc : forall lv v w ts t1 rest f s, Flag ts ((lparen, w) :: t1) f -> D (USig lv) t1 rest s -> D (UType lv) ((procedure_, v) :: ts) rest (TProcedure f (Some s))
(* ArrayType = Flag (OF Type | ConstExpression OF Type | ConstExpression "," ArrayType); there must be a length after a comma. *)
| r_open : forall lv w ts t1 rest f t, Flag ts ((of_, w) :: t1) f -> D (UType lv) t1 rest t -> D (UArray lv) ts rest (TArray f None t)
| r_fixed : forall lv w ts t1 t2 rest f n t, Flag ts t1 f -> E t1 ((of_, w) :: t2) n -> D (UType lv) t2 rest t -> D (UArray lv) ts rest (TArray f (Some n) t)
| r_more : forall lv w ts t1 t2 rest f n t, Flag ts t1 f -> E t1 ((comma, w) :: t2) n -> (forall v t3, t2 <> (of_, v) :: t3) -> D (UArray lv) t2 rest t ->
    D (UArray lv) ts rest (TArray f (Some n) t)
(* IdentList = IdentDef {"," IdentDef}. *)
| n_one : forall lv ts rest x, Def lv ts rest x -> D (UNames lv) ts rest (TNames [x])
| n_more : forall lv v ts t1 rest x l, Def lv ts ((comma, v) :: t1) x -> D (UNames lv) t1 rest (TNames l) -> D (UNames lv) ts rest (TNames (x :: l))
| i_one : forall x rest, D UIdents ((ident, x) :: rest) rest (TIdents [x])
| i_more : forall x v ts rest l, D UIdents ts rest (TIdents l) -> D UIdents ((ident, x) :: (comma, v) :: ts) rest (TIdents (x :: l))
(* Fields = FieldList {";" FieldList}.  FieldList = [IdentList ":" Type]. *)
| f_end : forall lv ts, D (UFields lv) ts ts (TList [])
| f_semi : forall lv v ts rest x, D (UFields lv) ts rest x -> D (UFields lv) ((semicolon, v) :: ts) rest x
| f_last : forall lv v ts t1 rest ns t, D (UNames lv) ts ((colon, v) :: t1) (TNames ns) -> D (UType lv) t1 rest t -> D (UFields lv) ts rest (TList [TField ns t])
| f_more : forall lv v w ts t1 t2 rest ns t l, D (UNames lv) ts ((colon, v) :: t1) (TNames ns) -> D (UType lv) t1 ((semicolon, w) :: t2) t ->
    D (UFields lv) t2 rest (TList l) -> D (UFields lv) ts rest (TList (TField ns t :: l))
(* FormalPars = "(" [FPSection {";" FPSection}] ")" [":" Qualident].  FPSection = [VAR] ident {"," ident} ":" Type. *)
| s_none : forall lv v ts rest q, Result ts rest q -> D (USig lv) ((rparen, v) :: ts) rest (TSig [] q)
| s_some : forall lv v ts t1 rest l q, D (UParams lv) ts ((rparen, v) :: t1) (TList l) -> Result t1 rest q -> D (USig lv) ts rest (TSig l q)
| p_last : forall lv v (ts t0 t1 rest : list tok) b ns t, Var b ts t0 -> D UIdents t0 ((colon, v) :: t1) (TIdents ns) -> D (UType lv) t1 rest t ->
    D (UParams lv) ts rest (TList [TParam b ns t])
| p_more : forall lv v w (ts t0 t1 t2 rest : list tok) b ns t l, Var b ts t0 -> D UIdents t0 ((colon, v) :: t1) (TIdents ns) -> D (UType lv) t1 ((semicolon, w) :: t2) t ->
    D (UParams lv) t2 rest (TList l) -> D (UParams lv) ts rest (TList (TParam b ns t :: l))
(* DeclSeq = {CONST {ConstDecl ";"} | TYPE {TypeDecl ";"} | VAR {VarDecl ";"}} {ProcDecl ";"}. *)
| d_none : forall lv ts, D (USections lv) ts ts (TList [])
| d_const : forall lv v ts t1 rest l k, D (UConsts lv) ts t1 (TList l) -> D (USections lv) t1 rest (TList k) -> D (USections lv) ((const_, v) :: ts) rest (TList (l ++ k))
| d_type : forall lv v ts t1 rest l k, D (UTypes lv) ts t1 (TList l) -> D (USections lv) t1 rest (TList k) -> D (USections lv) ((type_, v) :: ts) rest (TList (l ++ k))
| d_var : forall lv v ts t1 rest l k, D (UVars lv) ts t1 (TList l) -> D (USections lv) t1 rest (TList k) -> D (USections lv) ((var_, v) :: ts) rest (TList (l ++ k))
| c_none : forall lv ts, D (UConsts lv) ts ts (TList [])
| c_more : forall lv v w ts t1 t2 rest x e l, Def lv ts ((eql, v) :: t1) x -> E t1 ((semicolon, w) :: t2) e -> D (UConsts lv) t2 rest (TList l) ->
    D (UConsts lv) ts rest (TList (TConst x e :: l))
| y_none : forall lv ts, D (UTypes lv) ts ts (TList [])
| y_more : forall lv v w ts t1 t2 rest x t l, Def lv ts ((eql, v) :: t1) x -> D (UType lv) t1 ((semicolon, w) :: t2) t -> D (UTypes lv) t2 rest (TList l) ->
    D (UTypes lv) ts rest (TList (TType x t :: l))
| v_none : forall lv ts, D (UVars lv) ts ts (TList [])
| v_more : forall lv v w ts t1 t2 rest ns t l, D (UNames lv) ts ((colon, v) :: t1) (TNames ns) -> D (UType lv) t1 ((semicolon, w) :: t2) t -> D (UVars lv) t2 rest (TList l) ->
    D (UVars lv) ts rest (TList (TVar ns t :: l))
| ps_none : forall lv ts, D (UProcs lv) ts ts (TList [])
| ps_more : forall lv v w ts t1 rest x l, D (UProc lv) ts ((semicolon, w) :: t1) x -> D (UProcs lv) t1 rest (TList l) ->
    D (UProcs lv) ((procedure_, v) :: ts) rest (TList (x :: l))
(* ProcDecl = PROCEDURE Kind [Receiver] IdentDef [FormalPars] Body; the types in the heading are inside the procedure.
   Body = ";" Block ident, with the same name; nothing if forward; code if the kind is "-" and there is no receiver. *)
| p_plain : forall lv ts t1 t2 t3 rest k x s b, Kind ts t1 k -> (k = Plus \/ k = Minus -> lv = 0%nat) -> Def lv t1 t2 x -> Heading (Datatypes.S lv) t2 t3 s ->
    Body k false (Datatypes.S lv) (fst x) t3 rest b -> D (UProc lv) ts rest (TProc k None x s b)
| p_bound : forall v ts t0 t1 t2 t3 rest k r x s b, Kind ts ((lparen, v) :: t0) k -> Receiver t0 t1 r -> Def 0 t1 t2 x -> Heading 1 t2 t3 s ->
    Body k true 1 (fst x) t3 rest b -> D (UProc 0) ts rest (TProc k (Some r) x s b)
(* Block = DeclSeq [BEGIN StatementSequence] END. *)
| b_plain : forall lv w ts t1 rest ds ps, D (USections lv) ts t1 (TList ds) -> D (UProcs lv) t1 ((end_, w) :: rest) (TList ps) -> D (UBlock lv) ts rest (TBlock ds ps None)
| b_begin : forall lv v w ts t1 t2 rest ds ps b, D (USections lv) ts t1 (TList ds) -> D (UProcs lv) t1 ((begin_, v) :: t2) (TList ps) -> S t2 ((end_, w) :: rest) b ->
    D (UBlock lv) ts rest (TBlock ds ps (Some b))
(* Codes = [number] {"," [number]}. *)
| k_none : forall ts, D UCodes ts ts (TCodes [])
| k_one : forall n rest, D UCodes ((number, n) :: rest) rest (TCodes [n])
| k_comma : forall v ts rest l, D UCodes ts rest (TCodes l) -> D UCodes ((comma, v) :: ts) rest (TCodes l)
| k_more : forall n v ts rest l, D UCodes ts rest (TCodes l) -> D UCodes ((number, n) :: (comma, v) :: ts) rest (TCodes (n :: l))
(* ImportList = Import {"," Import}. *)
| m_one : forall ts rest i, Import ts rest i -> D UImports ts rest (TImports [i])
| m_more : forall v ts t1 rest i l, Import ts ((comma, v) :: t1) i -> D UImports t1 rest (TImports l) -> D UImports ts rest (TImports (i :: l))
(* [VAR] *)
with Var : bool -> list tok -> list tok -> Prop :=
| var_no : forall ts, Var false ts ts
| var_yes : forall v ts, Var true ((var_, v) :: ts) ts
with Heading : nat -> list tok -> list tok -> option tree -> Prop :=
| h_none : forall lv ts, Heading lv ts ts None
| h_some : forall lv v ts rest s, D (USig lv) ts rest s -> Heading lv ((lparen, v) :: ts) rest (Some s)
with Body : pkind -> bool -> nat -> Z -> list tok -> list tok -> option tree -> Prop :=
| body_forward : forall bound lv x ts, Body Forward bound lv x ts ts None
| body_string : forall lv x v rest, Body Minus false lv x ((string_, v) :: rest) rest (Some (TCode (NStr v)))
| body_codes : forall lv x ts rest l, D UCodes ts rest (TCodes l) -> Body Minus false lv x ts rest (Some (TCodes l))
| body_block : forall k bound lv x v ts rest b, k <> Forward -> (k = Minus -> bound = true) -> D (UBlock lv) ts ((ident, x) :: rest) b ->
    Body k bound lv x ((semicolon, v) :: ts) rest (Some b).

(* Module = MODULE ident ";" [IMPORT ImportList ";"] Block ident ".", with the same name. *)
Inductive Module_ : list tok -> list tok -> tree -> Prop :=
| module_plain : forall v x w ts u rest b, D (UBlock 0) ts ((ident, x) :: (period, u) :: rest) b ->
    Module_ ((module_, v) :: (ident, x) :: (semicolon, w) :: ts) ((period, u) :: rest) (TModule x [] b)
| module_import : forall v x w i ts s t1 u rest l b, D UImports ts ((semicolon, s) :: t1) (TImports l) -> D (UBlock 0) t1 ((ident, x) :: (period, u) :: rest) b ->
    Module_ ((module_, v) :: (ident, x) :: (semicolon, w) :: (import_, i) :: ts) ((period, u) :: rest) (TModule x l b).
End Grammar.
