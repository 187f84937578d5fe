(* C50: what C makes of a text, and what the compiler means by it.

   The grammar is the one of the C standard (C11 6.5.1-6.5.14), restricted to
   the operators the compiler writes: primary expressions, postfix operators,
   unary operators and casts, and ten levels of left associative binary
   operators.  The parser below follows that grammar and knows nothing of the
   compiler. *)
From Coq Require Import ZArith List Bool String Lia.
From Verif Require Import CExprModel.
Import ListNotations.
Open Scope Z_scope.

(* C expression trees; parentheses leave no trace *)
Inductive cexp :=
| CId (x : ident)
| CLit (l : lit)
| CUn (p : punct) (a : cexp)
| CCast (t : string) (stars : nat) (a : cexp)
| CBin (p : punct) (a b : cexp)
| CIdx (a b : cexp)
| CDot (a : cexp) (f : ident)
| CArrow (a : cexp) (f : ident)
| CCall (f : cexp) (a : list cexp).

(* C11 6.5.5-6.5.14: binding strength of the binary operators (there is no
   shift among them) *)
Definition level (p : punct) : option Z :=
  match p with
  | Pstar | Pslash => Some 8
  | Pplus | Pminus => Some 7
  | Plt | Ple | Pgt | Pge => Some 6
  | Peq | Pne => Some 5
  | Pamp => Some 4
  | Pcaret => Some 3
  | Pbar => Some 2
  | Pand => Some 1
  | Por => Some 0
  | Pnot | Ptilde => None
  end.

(* C11 6.5.3: the unary operators among them *)
Definition unary (p : punct) : bool :=
  match p with Pminus | Pstar | Pamp | Pnot | Ptilde => true | _ => false end.

(* what is being parsed *)
Inductive goal :=
| GUnary                       (* cast-expression *)
| GPost (a : cexp)             (* postfix operators after a *)
| GExpr (m : Z)                (* binary expression of operators of level m and above *)
| GClimb (m : Z) (a : cexp)    (* the operators of level m and above that follow a *)
| GArgs.                       (* the arguments of a call up to and with ")" *)

(* A recursive descent parser.  The result is a list of one tree, or of the
   arguments for GArgs, and the tokens left. *)
Fixpoint parse (fuel : nat) (g : goal) (ts : list tok) : option (list cexp * list tok) :=
  match fuel with
  | O => None
  | S f =>
      match g with
      | GUnary =>
          match ts with
          | TOp p :: r =>
              if unary p then
                match parse f GUnary r with
                | Some ([a], r') => Some ([CUn p a], r')
                | _ => None
                end
              else None
          | TLp :: TType t k :: TRp :: r =>
              match parse f GUnary r with
              | Some ([a], r') => Some ([CCast t k a], r')
              | _ => None
              end
          | TLp :: r =>
              match parse f (GExpr 0) r with
              | Some ([a], TRp :: r') => parse f (GPost a) r'
              | _ => None
              end
          | TId x :: r => parse f (GPost (CId x)) r
          | TLit l :: r => parse f (GPost (CLit l)) r
          | _ => None
          end
      | GPost a =>
          match ts with
          | TLb :: r =>
              match parse f (GExpr 0) r with
              | Some ([b], TRb :: r') => parse f (GPost (CIdx a b)) r'
              | _ => None
              end
          | TDot :: TId x :: r => parse f (GPost (CDot a x)) r
          | TArrow :: TId x :: r => parse f (GPost (CArrow a x)) r
          | TLp :: TRp :: r => parse f (GPost (CCall a [])) r
          | TLp :: r =>
              match parse f GArgs r with
              | Some (l, r') => parse f (GPost (CCall a l)) r'
              | None => None
              end
          | _ => Some ([a], ts)
          end
      | GExpr m =>
          match parse f GUnary ts with
          | Some ([a], r) => parse f (GClimb m a) r
          | _ => None
          end
      | GClimb m a =>
          match ts with
          | TOp p :: r =>
              match level p with
              | Some l =>
                  if m <=? l then
                    match parse f (GExpr (l + 1)) r with
                    | Some ([b], r') => parse f (GClimb m (CBin p a b)) r'
                    | _ => None
                    end
                  else Some ([a], ts)
              | None => Some ([a], ts)
              end
          | _ => Some ([a], ts)
          end
      | GArgs =>
          match parse f (GExpr 0) ts with
          | Some ([a], TComma :: r) =>
              match parse f GArgs r with
              | Some (l, r') => Some (a :: l, r')
              | None => None
              end
          | Some ([a], TRp :: r) => Some ([a], r)
          | _ => None
          end
      end
  end.

(* Blanks separate tokens and mean nothing else. *)
Definition is_sp (t : tok) : bool := match t with TSp => true | _ => false end.
Definition strip (ts : list tok) : list tok := filter (fun t => negb (is_sp t)) ts.

(* The text is the C expression t. *)
Definition reads (ts : list tok) (t : cexp) : Prop :=
  exists f, parse f (GExpr 0) (strip ts) = Some ([t], []).

(* ---- tokens written side by side ---- *)

(* Two tokens with no blank between them that C would not read as these two
   tokens (C11 6.4: the longest possible token is taken): two words, a minus
   sign before one or before ">", "&" before "&" and so on.  Any punctuator
   before one of the characters that can extend it is counted. *)
Definition word (t : tok) : bool := match t with TId _ | TLit _ | TType _ _ => true | _ => false end.
Definition merges (a b : tok) : bool :=
  (word a && word b) ||
  match a, b with
  | TOp p, TOp q =>
      match p, q with
      | Pminus, (Pminus | Pgt | Pge | Peq) => true
      | Pamp, (Pamp | Pand | Peq) => true
      | Pplus, (Pplus | Peq) => true
      | Pslash, (Pslash | Pstar | Peq) => true
      | Pbar, (Pbar | Por | Peq) => true
      | Plt, (Plt | Ple | Peq) => true
      | Pgt, (Pgt | Pge | Peq) => true
      | (Pnot | Pstar | Pcaret), Peq => true
      | _, _ => false
      end
  | TOp Pminus, TArrow => true
  | TLit _, TDot => true
  | _, _ => false
  end.
Fixpoint separate (ts : list tok) : bool :=
  match ts with
  | a :: ((b :: _) as r) => negb (merges a b) && separate r
  | _ => true
  end.

(* ---- the tree the compiler means ---- *)

Section Meaning.
Variable o : opts.

Definition int_tree (z : Z) : cexp :=
  if is_min z then CBin Pminus (CUn Pminus (CLit (Lint (- (z + 1))))) (CLit (Lint 1))
  else if z <? 0 then CUn Pminus (CLit (Lint (- z)))
  else CLit (Lint z).

Definition const_tree (k : konst) : cexp :=
  match k with
  | Kint z => int_tree z
  | Kreal neg s => if neg then CUn Pminus (CLit (Lother s)) else CLit (Lother s)
  | Kother s => CLit (Lother s)
  end.

(* a variable: itself, a field of the frame of an enclosing procedure (which
   holds the address of a variable, or the parameter itself), or the variable
   seen with the type of a WITH guard *)
Definition var_tree (w : place) (star : bool) (v : string) : cexp :=
  match w with
  | Here => CId (Named v)
  | Outer s => if star then CUn Pstar (CArrow (CId (Scope s)) (Named v)) else CArrow (CId (Scope s)) (Named v)
  | WithRec => CId (WithName v)
  | WithPtr t => CUn Pstar (CCast t 1 (CUn Pamp (CId (Named v))))
  end.

Definition len_ident_tree (w : place) (v : string) (k : Z) : cexp :=
  match w with
  | Outer s => CArrow (CId (Scope s)) (LenName v k)
  | _ => CId (LenName v k)
  end.

Definition fcall (x : string) (a : list cexp) : cexp := CCall (CId (Macro x)) a.

Definition checked (i : node) (plain : bool) (ti tn : cexp) : cexp :=
  if plain then ti else fcall (if SideEffects i then "__XF" else "__X") [ti; tn].

Fixpoint ctree (n : node) : cexp :=
  let len d ls :=
    match ls with
    | LFix z => int_tree z
    | LDyn k =>
        match d with
        | Deref true q => CIdx (CArrow (ctree q) (Named "len")) (int_tree k)
        | Var w _ v | VarPar w _ v => len_ident_tree w v k
        | _ => CLit (Lint 0)
        end
    end in
  match n with
  | Const k => const_tree k
  | Proc v => CId (Named v)
  | Var w open v => var_tree w (negb open) v
  | VarPar w arr v => if arr then var_tree w false v else CUn Pstar (var_tree w false v)
  | Field l f =>
      match l with
      | Deref _ q => CArrow (ctree q) (Named f)
      | _ => CDot (ctree l) (Named f)
      end
  | Deref open l => if open then CArrow (ctree l) (Named "data") else CUn Pstar (ctree l)
  | Index l i k => CIdx (ctree l) (checked i (plain_index o true i) (ctree i) (int_tree k))
  | Open d ix row =>
      let e := fold_left (fun a ls => CBin Pstar a (len d ls)) row (ix_tree (len d) ix) in
      match row with
      | [] => CIdx (ctree d) e
      | _ => CUn Pamp (CIdx (ctree d) e)
      end
  | GuardP anon l t lev =>
      if typchk o then fcall (if anon then "__GUARDA" else "__GUARDP") [ctree l; CId (Named t); int_tree lev]
      else CCast t 0 (ctree l)
  | GuardR w v t lev =>
      if typchk o then
        fcall "__GUARDR" [match w with Outer s => CArrow (CId (Scope s)) (Named v) | _ => CId (Named v) end;
                          CId (Named t); int_tree lev]
      else CUn Pstar (CCast t 1 (var_tree w false v))
  | Upto l r bits => fcall "__SETRNG" [ctree l; ctree r; int_tree bits]
  | Not l => CUn Pnot (ctree l)
  | Minus set l => CUn (if set then Ptilde else Pminus) (ctree l)
  | Is l t lev => fcall "__ISP" [ctree l; CId (Named t); int_tree lev]
  | Conv c entier l =>
      let e := if entier then fcall "__ENTIER" [ctree l] else ctree l in
      match c with
      | ToSet bits => fcall "__SETOF" [e; int_tree bits]
      | ToSize bits shorter cast =>
          if shorter && ranchk o
          then fcall (if SideEffects l then "__SHORTF" else "__SHORT") [e; int_tree (2 ^ (bits - 1))]
          else if cast then CCast "INT" 0 e else e
      | ToChar => if ranchk o then fcall (if SideEffects l then "__CHRF" else "__CHR") [e]
                  else CCast "CHAR" 0 e
      | ToSame => ctree l
      end
  | Abs real small l =>
      if SideEffects l then
        if real then fcall "__ABSFD" [ctree l]
        else if small then CCast "int" 0 (fcall "__ABSF" [ctree l]) else fcall "__ABSF" [ctree l]
      else fcall "__ABS" [ctree l]
  | Cap l => fcall "__CAP" [ctree l]
  | Odd l => fcall "__ODD" [ctree l]
  | Adr amp l =>
      CCast "ADDRESS" 0
        match l with
        | VarPar w _ v => var_tree w false v
        | _ => if amp then CUn Pamp (ctree l) else ctree l
        end
  | Val cast t viaadr l =>
      if cast then CCast t 0 (if viaadr then CCast "ADDRESS" 0 (ctree l) else ctree l)
      else fcall "__VAL" [CId (Named t); ctree l]
  | LenOf d ls => len d ls
  | LenProd d ls size =>
      match ls with
      | [] => int_tree size
      | l :: r => CBin Pstar (fold_left (fun a ls => CBin Pstar a (len d ls)) r (len d l)) (int_tree size)
      end
  | Fun2 f l r =>
      let c := fcall (fun2_name f l r)
                 ([ctree l; match fun2_shift f with Some k => int_tree k | None => ctree r end] ++
                  match fun2_bits f with Some b => [int_tree b] | None => [] end) in
      if fun2_int f l r then CCast "int" 0 c else c
  | Rel p k l r =>
      match k with
      | RStr => CBin p (fcall "__STRCMP" [ctree l; ctree r]) (CLit (Lint 0))
      | RVoid => CBin p (ctree l) (CCast "void" 1 (ctree r))
      | RPlain => CBin p (ctree l) (ctree r)
      end
  | Bin b l r =>
      match b with
      | Btimes => CBin Pstar (ctree l) (ctree r)
      | Bslash None => CBin Pslash (ctree l) (ctree r)
      | Bslash (Some t) => CBin Pslash (ctree l) (CCast t 0 (ctree r))
      | Bplus => CBin Pplus (ctree l) (ctree r)
      | Bminus => CBin Pminus (ctree l) (ctree r)
      | Stimes => CBin Pamp (ctree l) (ctree r)
      | Sslash => CBin Pcaret (ctree l) (ctree r)
      | Splus => CBin Pbar (ctree l) (ctree r)
      | Sminus => CBin Pamp (ctree l) (CUn Ptilde (ctree r))
      | Band => CBin Pand (ctree l) (ctree r)
      | Bor => CBin Por (ctree l) (ctree r)
      end
  | TypeOf l => fcall "__TYPEOF" [ctree l]
  | Call f a => CCall (CId f) (args_tree a)
  | CallVar l a => CCall (CUn Pstar (ctree l)) (args_tree a)
  end
with args_tree (a : args) : list cexp :=
  match a with
  | ANone => []
  | ACons p n r =>
      match p with
      | PValue => ctree n
      | PCast t => CCast t 1 (ctree n)
      | PRef void => if void then CCast "void" 1 (CUn Pamp (ctree n)) else CUn Pamp (ctree n)
      | PValRef t void =>
          CCast t 1 (if void then CCast "void" 1 (CUn Pamp (ctree n)) else CUn Pamp (ctree n))
      | PValArr t => CCast t 1 (ctree n)
      end :: args_tree r
  end
(* last index + length * (the indices before it) *)
with ix_tree (len : lenspec -> cexp) (ix : ixs) : cexp :=
  match ix with
  | ILast i ls => checked i (plain_index o false i) (ctree i) (len ls)
  | ICons i ls r =>
      CBin Pplus (checked i (plain_index o false i) (ctree i) (len ls))
        (CBin Pstar (len ls) (ix_tree len r))
  end.

(* ---- the trees the front end builds ---- *)

(* An array whose lengths are written: a parameter or variable, or p^. *)
Definition has_len (d : node) : bool :=
  match d with
  | Var (WithRec | WithPtr _) _ _ | VarPar (WithRec | WithPtr _) _ _ => false
  | Var _ _ _ | VarPar _ _ _ => true
  | Deref true q => is_design q
  | _ => false
  end.

(* A row of an open array *)
Definition is_row (n : node) : bool :=
  match n with Open _ _ (_ :: _) => true | _ => false end.

Definition is_neg (n : node) : bool :=
  match n with
  | Const (Kint z) => negb (is_min z) && (z <? 0)
  | Const (Kreal neg _) => neg
  | _ => false
  end.

(* A set: a set operation or something without a binary operator; relations,
   sums and products of numbers are not sets *)
Definition set_like (n : node) : bool := (Precedence o n <=? 4) || (9 <=? Precedence o n).

(* Designators are built from designators; a pointer or array expression
   written after a cast has no operator below the unary ones (there is no
   operator on pointers or arrays); a constant is never the operand of a unary
   minus (OPB.MOp folds it, C39); the address operator is not applied to a
   row, which is written as an address already; what is subtracted from a set
   is a set; relations use the relational
   operators; a fixed length is not negative. *)
Fixpoint built (n : node) : bool :=
  match n with
  | Const _ | Var _ _ _ | VarPar _ _ _ | Proc _ | GuardR _ _ _ _ => true
  | Field l _ => is_design l && negb (is_row l) && built l &&
      match l with Deref _ q => is_design q && negb (is_row q) | _ => true end
  | Deref _ l => is_design l && negb (is_row l) && built l
  | Index l i _ => is_design l && negb (is_row l) && built l && built i
  | Open d ix _ => is_design d && negb (is_row d) && has_len d && built d && built_ix ix
  | GuardP _ l _ _ => built l
  | Upto l r _ => built l && built r
  | Not l | Is l _ _ | Abs _ _ l | Cap l | Odd l | Val _ _ _ l | Conv _ _ l | TypeOf l => built l
  | Minus set l => built l && (set || negb (is_neg l))
  | Adr amp l => built l && (negb amp || negb (is_row l))
  | LenOf d ls => has_len d && built d && match ls with LFix z => 0 <=? z | LDyn _ => true end
  | LenProd d _ _ => has_len d && built d
  | Fun2 _ l r => built l && built r
  | Bin b l r => built l && built r && match b with Sminus => set_like r | _ => true end
  | Rel p k l r => built l && built r && match p with Plt | Ple | Pgt | Pge | Peq | Pne => true | _ => false end &&
      match k with RVoid => 9 <=? Precedence o r | _ => true end
  | Call _ a => built_args a
  | CallVar l a => is_design l && negb (is_row l) && built l && built_args a
  end
with built_args (a : args) : bool :=
  match a with
  | ANone => true
  | ACons p n r =>
      built n && built_args r &&
      match p with
      | PValue => true
      | PCast _ => 9 <=? Precedence o n
      | PRef _ | PValRef _ _ => negb (is_row n)
      | PValArr _ => true
      end
  end
with built_ix (ix : ixs) : bool :=
  match ix with
  | ILast i _ => built i
  | ICons i _ r => built i && built_ix r
  end.
End Meaning.
