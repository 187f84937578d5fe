(* C50: the C expressions the compiler writes for Oberon expressions, with the
   parentheses and blanks it writes.

   Modelled code: OPV.Precedence (OPV.Mod 160-206), OPV.Len (211-227),
   OPV.SideEffects (229-234), OPV.Entier / SizeCast / Convert (236-279),
   OPV.Index (298-307), OPV.design (309-396), OPV.ActualPar (404-460) and
   OPV.expr (470-645) of /repo/src/compiler/OPV.Mod; OPC.CompleteIdent
   (1089-1107), OPC.Cmp (1126-1137) and OPC.Len (1217-1229) of
   /repo/src/compiler/OPC.Mod; OPM.WriteInt (688-704) of
   /repo/src/compiler/OPM.Mod.

   General simplifications.  The text is modelled as the list of the tokens and
   blanks that are written; identifiers are opaque.  A node carries the
   decisions the code takes from the types of its operands (a set operation or
   an arithmetic one, a cast needed or not, the name of the type written) as
   constructor arguments, so that every outcome of these decisions is covered.
   Class Neguard (written only as a whole left-hand side) and Ntype are left
   out, and so are the messages for unhandled cases. *)
From Coq Require Import ZArith List Bool String Lia.
Import ListNotations.
Open Scope Z_scope.

(* ---- tokens of C ---- *)

(* Names.  [Named s] is an Oberon object (OPC.Ident), the other forms are the
   derived names the compiler uses. *)
Inductive ident :=
| Named (s : string)
| Scope (s : string)               (* name of a scope ^ "_s": OPC.CompleteIdent 1103 *)
| LenName (s : string) (dim : Z)   (* name ^ "__len" [^ dim]: OPC.Len 1224-1225 *)
| WithName (s : string)            (* name ^ "__": OPC.CompleteIdent 1095 *)
| Macro (s : string).              (* a macro or function of SYSTEM.h *)

Inductive lit := Lint (z : Z) | Lother (s : string).

Inductive punct :=
| Pstar | Pslash | Pplus | Pminus | Plt | Ple | Pgt | Pge | Peq | Pne
| Pamp | Pcaret | Pbar | Pand | Por | Pnot | Ptilde.

(* [TType t k]: a type name followed by k stars; C decides by the typedefs in
   scope that a name is a type. *)
Inductive tok :=
| TId (x : ident) | TLit (l : lit) | TType (t : string) (stars : nat)
| TOp (p : punct) | TLp | TRp | TLb | TRb | TComma | TDot | TArrow | TSp.

(* ---- the compiler's tree, as far as expressions need it ---- *)

(* Constants: OPC.Constant 1231-1260.  Integers, reals with a sign, and the
   other literals (characters, strings, sets, NIL), one token each. *)
Inductive konst := Kint (z : Z) | Kreal (neg : bool) (s : string) | Kother (s : string).

(* Where a variable lives: OPC.CompleteIdent 1094-1106. *)
Inductive place := Here | Outer (scope : string) | WithRec | WithPtr (t : string).

(* The length of dimension [LDyn d] of an open array, or the fixed length of an
   inner dimension: OPV.Len 218-223, OPC.Len 1223-1227. *)
Inductive lenspec := LDyn (d : Z) | LFix (z : Z).

(* OPV.Convert: the forms a conversion can take. *)
Inductive convert :=
| ToSet (bits : Z)                 (* set from integer: __SETOF *)
| ToSize (bits : Z) (shorter cast : bool)  (* SizeCast: shorter = (to < n.typ.size), cast = the test of 250 *)
| ToChar
| ToSame.                          (* any other conversion writes no text of its own *)

(* The operators written as a call of a macro: OPV.expr 536-586. *)
Inductive fun2 :=
| Fin (bits : Z) | Fash (sh : option Z) | Fmsk | Fbit
| Flsh (bits : Z) (sh : option Z) | Frot (bits : Z) (sh : option Z)
| Fdiv (small : bool) | Fmod (small : bool).

(* Binary operators: arithmetic, sets, Boolean. *)
Inductive binop :=
| Btimes | Bslash (cast : option string) | Bplus | Bminus
| Stimes | Sslash | Splus | Sminus | Band | Bor.

(* How the two sides of a relation are written: OPV.expr 587-598. *)
Inductive relkind := RStr | RVoid | RPlain.

(* How an actual parameter is written: OPV.ActualPar 404-432. *)
Inductive pass :=
| PValue                           (* expr(n, MinPrec) *)
| PCast (t : string)               (* a cast to a pointer type t, then expr(n, MinPrec) *)
| PRef (void : bool)               (* a cast to void pointer or none, "&", expr(n, 9) *)
| PValRef (t : string) (void : bool)  (* the same for the operand of SYSTEM.VAL, after a cast to pointer to t *)
| PValArr (t : string).            (* an array operand of SYSTEM.VAL: the cast, expr(n^.left, 10) *)

Inductive node :=
| Const (k : konst)
| Var (w : place) (open : bool) (v : string)
| VarPar (w : place) (arr : bool) (v : string)
| Proc (p : string)
| Field (l : node) (f : string)
| Deref (open : bool) (l : node)
| Index (l i : node) (n : Z)                     (* array of fixed length n *)
| Open (d : node) (ix : ixs) (row : list lenspec)  (* open array, row = lengths not indexed *)
| GuardP (anon : bool) (l : node) (t : string) (lev : Z)
| GuardR (w : place) (v : string) (t : string) (lev : Z)
| Upto (l r : node) (bits : Z)
| Not (l : node)
| Minus (set : bool) (l : node)
| Is (l : node) (t : string) (lev : Z)
| Abs (real small : bool) (l : node)
| Cap (l : node)
| Odd (l : node)
| Adr (amp : bool) (l : node)
| Val (cast : bool) (t : string) (viaadr : bool) (l : node)
| Conv (c : convert) (entier : bool) (l : node)
| LenOf (d : node) (ls : lenspec)
| LenProd (d : node) (ls : list lenspec) (size : Z)
| Fun2 (f : fun2) (l r : node)
| Rel (p : punct) (k : relkind) (l r : node)
| Bin (b : binop) (l r : node)
| TypeOf (l : node)
| Call (p : ident) (a : args)
| CallVar (l : node) (a : args)
with args := ANone | ACons (p : pass) (n : node) (a : args)
(* indices of an open array, last dimension first; each with the length of its
   dimension *)
with ixs := ILast (i : node) (ls : lenspec) | ICons (i : node) (ls : lenspec) (r : ixs).

(* The compiler options that change the text: OPM.Options. *)
Record opts := { inxchk : bool; ranchk : bool; typchk : bool }.

(* OPV.Mod 37-39 *)
Definition MinPrec : Z := -1.
Definition MaxPrec : Z := 12.
Definition ProcTypeVar : Z := 11.

(* OPV.Precedence 160-206.  An index of an open array has class Nindex; a row
   of one too.  __TYPEOF and the byte length of an array argument are written
   by TypeOf and ActualPar without asking for a precedence; they are given the
   precedence of a call and of a product.  IS on a record variable has no
   operand that is an expression: it is a Call here. *)
Definition Precedence (o : opts) (n : node) : Z :=
  match n with
  | Const _ | Var _ _ _ | Field _ _ | Index _ _ _ | Open _ _ _ | Proc _ | Call _ _ | CallVar _ _ => 10
  | GuardP _ _ _ _ | GuardR _ _ _ _ => if typchk o then 10 else 9
  | VarPar _ arr _ => if arr then 10 else 9
  | Deref _ _ => 9
  | Not _ | Minus _ _ | Adr _ _ | Val _ _ _ _ | Conv _ _ _ => 9
  | Is _ _ _ | Abs _ _ _ | Cap _ | Odd _ => 10
  | Bin b _ _ =>
      match b with
      | Btimes => 8 | Stimes => 4
      | Bslash _ => 8 | Sslash => 3
      | Bplus => 7 | Splus => 2
      | Bminus => 7 | Sminus => 4
      | Band => 1 | Bor => 0
      end
  | Rel p _ _ _ => match p with Peq | Pne => 5 | _ => 6 end
  | Fun2 _ _ _ | LenOf _ _ => 10
  | Upto _ _ _ => 10
  | TypeOf _ => 10
  | LenProd _ _ _ => 8
  end.

(* OPV.SideEffects 229-234: is there a call in the tree, following left and
   right only *)
Fixpoint SideEffects (n : node) : bool :=
  match n with
  | Call _ _ | CallVar _ _ => true
  | Const _ | Var _ _ _ | VarPar _ _ _ | Proc _ | GuardR _ _ _ _ => false
  | Field l _ | Deref _ l | GuardP _ l _ _ | Not l | Minus _ l | Is l _ _ | Abs _ _ l | Cap l | Odd l
  | Adr _ l | Val _ _ _ l | Conv _ _ l | LenOf l _ | LenProd l _ _ | TypeOf l => SideEffects l
  | Index l r _ | Upto l r _ | Fun2 _ l r | Rel _ _ l r | Bin _ l r => SideEffects l || SideEffects r
  | Open d ix _ => SideEffects d || SideEffectsIx ix
  end
with SideEffectsIx (ix : ixs) : bool :=
  match ix with
  | ILast i _ => SideEffects i
  | ICons i _ r => SideEffects i || SideEffectsIx r
  end.

(* blank operator blank *)
Definition spaced (p : punct) : list tok := [TSp; TOp p; TSp].

(* a cast to t followed by stars *)
Definition castto (t : string) (stars : nat) : list tok := [TLp; TType t stars; TRp].

(* ", " *)
Definition Comma : list tok := [TComma; TSp].

(* name "(" a ")" *)
Definition callof (x : ident) (a : list tok) : list tok := TId x :: TLp :: a ++ [TRp].

(* OPM.WriteInt 688-704: the most negative 16, 32 and 64-bit integers are
   written as (-max-1), other negative integers with a minus sign.  Digits and
   the LL suffix are one token. *)
Definition is_min (z : Z) : bool := (z =? - 2 ^ 15) || (z =? - 2 ^ 31) || (z =? - 2 ^ 63).
Definition WriteInt (z : Z) : list tok :=
  if is_min z then [TLp; TOp Pminus; TLit (Lint (- (z + 1))); TOp Pminus; TLit (Lint 1); TRp]
  else if z <? 0 then [TOp Pminus; TLit (Lint (- z))]
  else [TLit (Lint z)].

(* OPC.Constant 1231-1260 *)
Definition Constant (k : konst) : list tok :=
  match k with
  | Kint z => WriteInt z
  | Kreal neg s => (if neg then [TOp Pminus] else []) ++ [TLit (Lother s)]
  | Kother s => [TLit (Lother s)]
  end.

(* OPC.CompleteIdent 1089-1107.  [star]: obj^.mode # VarPar and the type is not
   an open array. *)
Definition CompleteIdent (w : place) (star : bool) (v : string) : list tok :=
  match w with
  | Here => [TId (Named v)]
  | Outer s => (if star then [TOp Pstar] else []) ++ [TId (Scope s); TArrow; TId (Named v)]
  | WithRec => [TId (WithName v)]
  | WithPtr t => [TLp; TOp Pstar; TLp; TType t 1; TRp; TOp Pamp; TId (Named v); TRp]
  end.

(* OPC.Len 1217-1229 for a variable: CompleteIdent writes the name of an array,
   the length extension completes that name. *)
Definition LenIdent (w : place) (v : string) (d : Z) : list tok :=
  match w with
  | Outer s => [TId (Scope s); TArrow; TId (LenName v d)]
  | _ => [TId (LenName v d)]
  end.

(* OPV.Index 300-301 *)
Definition is_const (n : node) : bool := match n with Const _ => true | _ => false end.
Definition is_zero (n : node) : bool := match n with Const (Kint 0) => true | _ => false end.
(* is the index written without a check; [fixed]: the array is not open *)
Definition plain_index (o : opts) (fixed : bool) (i : node) : bool :=
  negb (inxchk o) || (is_const i && (is_zero i || fixed)).

(* the macro name of OPV.expr 545-577 *)
Definition fun2_name (f : fun2) (l r : node) : string :=
  match f with
  | Fin _ => "__IN"
  | Fash (Some k) => if k >=? 0 then "__ASHL" else "__ASHR"
  | Fash None => if SideEffects r then "__ASHF" else "__ASH"
  | Fmsk => "__MASK"
  | Fbit => "__BIT"
  | Flsh _ (Some k) => if k >=? 0 then "__LSHL" else "__LSHR"
  | Flsh _ None => "__LSH"
  | Frot _ (Some k) => if k >=? 0 then "__ROTL" else "__ROTR"
  | Frot _ None => "__ROT"
  | Fdiv _ => if SideEffects l || SideEffects r then "__DIVF" else "__DIV"
  | Fmod _ => if SideEffects l || SideEffects r then "__MODF" else "__MOD"
  end%string.

(* the "(int)" before the macro name: OPV.expr 569, 573 *)
Definition fun2_int (f : fun2) (l r : node) : bool :=
  match f with
  | Fdiv small => small && (SideEffects l || SideEffects r)
  | Fmod small => small
  | _ => false
  end.

(* a constant shift count: OPV.expr 579-581 writes -count when it is negative *)
Definition fun2_shift (f : fun2) : option Z :=
  match f with
  | Fash (Some k) | Flsh _ (Some k) | Frot _ (Some k) => if k <? 0 then Some (- k) else None
  | _ => None
  end.

(* the third argument: OPV.expr 582-585 *)
Definition fun2_bits (f : fun2) : option Z :=
  match f with
  | Fin b | Flsh b _ | Frot b _ => Some b
  | _ => None
  end.

(* OPV.expr 602-606 and 629: the operators that get parentheses of their own *)
Definition extra_parens (b : binop) : bool :=
  match b with Band | Stimes | Sminus => true | _ => false end.

(* the operator text: OPV.expr 607-626 *)
Definition bin_text (b : binop) : list tok :=
  match b with
  | Btimes => spaced Pstar
  | Stimes => spaced Pamp
  | Sslash => spaced Pcaret
  | Bslash None => spaced Pslash
  | Bslash (Some t) => spaced Pslash ++ castto t 0
  | Band => spaced Pand
  | Splus => spaced Pbar
  | Bplus => spaced Pplus
  | Sminus => spaced Pamp ++ [TOp Ptilde]
  | Bminus => spaced Pminus
  | Bor => spaced Por
  end.

(* parentheses when the test holds *)
Definition paren (b : bool) (t : list tok) : list tok := if b then TLp :: t ++ [TRp] else t.

(* The nodes OPV.design handles *)
Definition is_design (n : node) : bool :=
  match n with
  | Var _ _ _ | VarPar _ _ _ | Proc _ | Field _ _ | Deref _ _ | Index _ _ _ | Open _ _ _
  | GuardP _ _ _ _ | GuardR _ _ _ _ => true
  | _ => false
  end.
Definition is_guard (n : node) : bool :=
  match n with GuardP _ _ _ _ | GuardR _ _ _ _ => true | _ => false end.

(* OPV.design 315-316: the precedence design uses, lowered for a variable of an
   intermediate level *)
Definition designPrec (o : opts) (n : node) (prec : Z) : Z :=
  match n with
  | Var (Outer _) _ _ => if prec =? 10 then 9 else Precedence o n
  | _ => Precedence o n
  end.

(* OPV.design (des = true) and OPV.expr (des = false): expr hands a node of the
   design classes to design with the same precedence (639), so the two are one
   function here.  The parentheses written by expr are those of the test of 484
   and 640, the ones written by design those of 317 and 394. *)
Fixpoint emit (o : opts) (des : bool) (n : node) (prec : Z) {struct n} : list tok :=
  let p := Precedence o n in
  let dp := designPrec o n prec in
  let star := if prec =? ProcTypeVar then [TOp Pstar] else [] in
  (* expr's parentheses *)
  let xp t := paren (negb des && (p <=? prec)) t in
  (* design's parentheses *)
  let ds t := paren (prec >? dp) (star ++ t) in
  (* OPV.Len *)
  let len d ls :=
    match ls with
    | LFix z => WriteInt z
    | LDyn k =>
        match d with
        | Deref true q => emit o true q 10 ++ [TArrow; TId (Named "len"); TLb] ++ WriteInt k ++ [TRb]
        | Var w _ v | VarPar w _ v => LenIdent w v k
        | _ => []
        end
    end in
  match n with
  (* 487 *)
  | Const k => xp (Constant k)
  (* 321-324 *)
  | Proc v => ds [TId (Named v)]
  | Var w open v => ds (CompleteIdent w (negb open) v)
  | VarPar w arr v => ds ((if arr then [] else [TOp Pstar]) ++ CompleteIdent w false v)
  (* 325-328 *)
  | Field l f =>
      ds (match l with
          | Deref _ q => emit o true q dp ++ [TArrow]
          | _ => emit o true l dp ++ [TDot]
          end ++ [TId (Named f)])
  (* 329-331 *)
  | Deref open l =>
      ds (if open then emit o true l 10 ++ [TArrow; TId (Named "data")]
          else TOp Pstar :: emit o true l dp)
  (* 357-361 *)
  | Index l i k =>
      ds (emit o true l dp ++ [TLb] ++
          (if plain_index o true i then emit o false i MinPrec
           else callof (Macro (if SideEffects i then "__XF" else "__X"))
                  (emit o false i MinPrec ++ Comma ++ WriteInt k)) ++
          [TRb])
  (* 332-356: Horner's scheme *)
  | Open d ix row =>
      let open_row := match row with [] => false | _ => true end in
      ds ((if open_row then [TOp Pamp] else []) ++ emit o true d dp ++ [TLb] ++
          (if open_row then [TLp] else []) ++
          emit_ix o (len d) ix ++
          (if open_row then [TRp] else []) ++
          flat_map (fun ls => spaced Pstar ++ len d ls) row ++
          [TRb])
  (* 362-383 *)
  | GuardP anon l t lev =>
      xp (ds (if typchk o
              then callof (Macro (if anon then "__GUARDA" else "__GUARDP"))
                     (emit o false l MinPrec ++ Comma ++ [TId (Named t)] ++ Comma ++ WriteInt lev)
              else castto t 0 ++ emit o false l dp))
  | GuardR w v t lev =>
      xp (ds (if typchk o
              then callof (Macro "__GUARDR")
                     (match w with Outer s => [TId (Scope s); TArrow; TId (Named v)] | _ => [TId (Named v)] end
                      ++ Comma ++ [TId (Named t)] ++ Comma ++ WriteInt lev)
              else TOp Pstar :: castto t 1 ++ CompleteIdent w false v))
  (* 488-490 *)
  | Upto l r bits =>
      xp (callof (Macro "__SETRNG")
            (emit o false l MinPrec ++ Comma ++ emit o false r MinPrec ++ Comma ++ WriteInt bits))
  (* 493-495 *)
  | Not l => xp (TOp Pnot :: emit o false l p)
  | Minus set l => xp ((if set then TOp Ptilde else TOp Pminus) :: emit o false l p)
  (* 496-501 *)
  | Is l t lev =>
      xp (callof (Macro "__ISP")
            (emit o false l MinPrec ++ Comma ++ [TId (Named t)] ++ Comma ++ WriteInt lev))
  (* 502 *)
  | Conv c entier l =>
      (* OPV.Entier 236-242 *)
      let ent pr := if entier then callof (Macro "__ENTIER") (emit o false l MinPrec)
                    else emit o false l pr in
      xp (match c with
          (* OPV.Convert 264-266 *)
          | ToSet bits => callof (Macro "__SETOF") (ent MinPrec ++ [TComma] ++ WriteInt bits)
          (* OPV.SizeCast 244-256 *)
          | ToSize bits shorter cast =>
              if shorter && ranchk o
              then callof (Macro (if SideEffects l then "__SHORTF" else "__SHORT"))
                     (ent MinPrec ++ Comma ++ WriteInt (2 ^ (bits - 1)))
              else (if cast then castto "INT" 0 else []) ++ ent 9
          (* 270-275 *)
          | ToChar =>
              if ranchk o
              then callof (Macro (if SideEffects l then "__CHRF" else "__CHR")) (ent MinPrec)
              else castto "CHAR" 0 ++ ent 9
          (* 276 *)
          | ToSame => emit o false l p
          end)
  (* 503-513 *)
  | Abs real small l =>
      xp ((if SideEffects l then
             if real then [TId (Macro "__ABSFD")]
             else (if small then castto "int" 0 else []) ++ [TId (Macro "__ABSF")]
           else [TId (Macro "__ABS")])
          ++ [TLp] ++ emit o false l MinPrec ++ [TRp])
  | Cap l => xp (callof (Macro "__CAP") (emit o false l MinPrec))
  | Odd l => xp (callof (Macro "__ODD") (emit o false l MinPrec))
  (* 514-519 *)
  | Adr amp l =>
      xp (castto "ADDRESS" 0 ++
          match l with
          | VarPar w _ v => CompleteIdent w false v
          | _ => (if amp then [TOp Pamp] else []) ++ emit o false l p
          end)
  (* 520-533 *)
  | Val cast t viaadr l =>
      xp (if cast
          then castto t 0 ++ (if viaadr then castto "ADDRESS" 0 else []) ++ emit o false l p
          else callof (Macro "__VAL") ([TId (Named t)] ++ Comma ++ emit o false l MinPrec))
  (* 536 *)
  | LenOf d ls => xp (len d ls)
  (* ActualPar 448-454 *)
  | LenProd d ls size => xp (flat_map (fun l => len d l ++ spaced Pstar) ls ++ WriteInt size)
  (* 537-587 *)
  | Fun2 f l r =>
      xp ((if fun2_int f l r then castto "int" 0 else []) ++
          callof (Macro (fun2_name f l r))
            (emit o false l MinPrec ++ Comma ++
             (match fun2_shift f with Some k => WriteInt k | None => emit o false r MinPrec end) ++
             (match fun2_bits f with Some b => Comma ++ WriteInt b | None => [] end)))
  (* 588-599 *)
  | Rel c k l r =>
      xp (match k with
          | RStr => callof (Macro "__STRCMP")
                      (emit o false l MinPrec ++ Comma ++ emit o false r MinPrec)
                    ++ spaced c ++ [TLit (Lint 0)]
          | RVoid => emit o false l p ++ spaced c ++ castto "void" 1 ++ [TSp] ++ emit o false r p
          | RPlain => emit o false l p ++ spaced c ++ emit o false r p
          end)
  (* 600-629 *)
  | Bin b l r =>
      xp (paren (extra_parens b) (emit o false l p ++ bin_text b ++ emit o false r p))
  (* OPV.TypeOf 284, 288 *)
  | TypeOf l => xp (callof (Macro "__TYPEOF") (emit o false l MinPrec))
  (* 630-638 *)
  | Call f a => xp ([TId f; TLp] ++ emit_args o a ++ [TRp])
  | CallVar l a => xp (emit o true l ProcTypeVar ++ [TLp] ++ emit_args o a ++ [TRp])
  end
(* OPV.ActualPar 404-460; the type tags and array lengths that follow a
   parameter are arguments of their own here *)
with emit_args (o : opts) (a : args) {struct a} : list tok :=
  match a with
  | ANone => []
  | ACons p n r =>
      (match p with
       | PValue => emit o false n MinPrec
       | PCast t => castto t 1 ++ emit o false n MinPrec
       | PRef void => (if void then castto "void" 1 else []) ++ [TOp Pamp] ++ emit o false n 9
       | PValRef t void => castto t 1 ++ (if void then castto "void" 1 else []) ++ [TOp Pamp] ++ emit o false n 9
       | PValArr t => castto t 1 ++ emit o false n 10
       end) ++
      (match r with ANone => [] | _ => Comma ++ emit_args o r end)
  end
(* OPV.design 340-347 with OPV.Index 298-307: the index of one dimension, then
   " + length * (" and the dimensions before it, closed at the end *)
with emit_ix (o : opts) (len : lenspec -> list tok) (ix : ixs) {struct ix} : list tok :=
  match ix with
  | ILast i ls =>
      if plain_index o false i then emit o false i MinPrec
      else callof (Macro (if SideEffects i then "__XF" else "__X")) (emit o false i MinPrec ++ Comma ++ len ls)
  | ICons i ls r =>
      (if plain_index o false i then emit o false i 7
       else callof (Macro (if SideEffects i then "__XF" else "__X")) (emit o false i MinPrec ++ Comma ++ len ls))
      ++ spaced Pplus ++ len ls ++ spaced Pstar ++ [TLp] ++ emit_ix o len r ++ [TRp]
  end.

Definition expr (o : opts) (n : node) (prec : Z) : list tok := emit o false n prec.
