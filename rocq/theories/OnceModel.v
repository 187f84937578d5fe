(** The C written for expressions with function calls, with the macros of SYSTEM.h expanded, and its execution. *)
From Verif Require Import Base OnceSpec.

(** C expressions: [CHalt k c] is (__HALT(k), c); [CFun]: a routine of the run-time system, whose arguments are evaluated once; [CTag], [CLen]: __TYPEOF(p), p->len[0];
    [CCall]: the function is given by its address.  Casts are left out (C72). *)
Inductive cun := UMinus | UNot | UAnd (m : Z) | UBit (s : Z) | UByte.
Inductive cbin := BAdd | BSub | BMul | BQuot | BRem | BRel (r : rel) | BShl | BShr | BOr | BCast (s : Z) | BUns (s : Z) | BRng (s : Z).
Inductive routine := XF | RF | DIVF | MODF | ASHF | ABSF.
Inductive cexpr :=
| CInt (v : Z)
| CLoad (l : clval)
| CCall (f : cexpr) (a : cargs)
| CMethod (t : cexpr) (m : Z)
| CUn (o : cun) (c : cexpr)
| CBin (o : cbin) (c1 c2 : cexpr)
| CCond (c c1 c2 : cexpr)
| CAndAlso (c1 c2 : cexpr)
| COrElse (c1 c2 : cexpr)
| CHalt (k : Z) (c : cexpr)
| CFun (r : routine) (c1 c2 : cexpr)
| CTag (c : cexpr)
| CLen (c : cexpr)
| CIs (c : cexpr) (t : Z)
with clval :=
| LVar (i : nat)
| LField (l : clval) (k : Z)
| LIndex (l : clval) (c : cexpr)
| LStar (c : cexpr)
with cargs :=
| CNil
| CVal (c : cexpr) (a : cargs)
| CRef (l : clval) (a : cargs).

(** SYSTEM.h 120-128, 172-230, 249-254.  Arguments appear in the expansion as often as here. *)
Definition X_ (i ub : cexpr) : cexpr := CCond (CBin (BRel Lt) i ub) i (CHalt (-2) (CInt 0)).
Definition R_ (i ub : cexpr) : cexpr := CCond (CBin (BRel Lt) i ub) i (CHalt (-8) (CInt 0)).
Definition SHORT_ (x ub : cexpr) : cexpr := CCond (CBin (BRel Lt) (CBin (BUns 64) (CBin BAdd x ub) (CInt 0)) (CBin BAdd ub ub)) x (CHalt (-8) (CInt 0)).
Definition SHORTF_ (x ub : cexpr) : cexpr := CBin BSub (CFun RF (CBin BAdd x ub) (CBin BAdd ub ub)) ub.
Definition CHR_ (x : cexpr) : cexpr := R_ x (CInt 256).
Definition CHRF_ (x : cexpr) : cexpr := CFun RF x (CInt 256).
Definition LSHL_ (x n : cexpr) (s : Z) : cexpr := CBin (BCast s) (CBin BShl (CBin (BUns s) x (CInt 0)) n) (CInt 0).
Definition LSHR_ (x n : cexpr) (s : Z) : cexpr := CBin (BCast s) (CBin BShr (CBin (BUns s) x (CInt 0)) n) (CInt 0).
Definition LSH_ (x n : cexpr) (s : Z) : cexpr := CCond (CBin (BRel Ge) n (CInt 0)) (LSHL_ x n s) (LSHR_ x (CUn UMinus n) s).
Definition ROTL_ (x n : cexpr) (s : Z) : cexpr :=
  CBin (BCast s) (CBin BOr (CBin BShl (CBin (BUns s) x (CInt 0)) n) (CBin BShr (CBin (BUns s) x (CInt 0)) (CBin BSub (CInt s) n))) (CInt 0).
Definition ROTR_ (x n : cexpr) (s : Z) : cexpr :=
  CBin (BCast s) (CBin BOr (CBin BShr (CBin (BUns s) x (CInt 0)) n) (CBin BShl (CBin (BUns s) x (CInt 0)) (CBin BSub (CInt s) n))) (CInt 0).
Definition ROT_ (x n : cexpr) (s : Z) : cexpr := CCond (CBin (BRel Ge) n (CInt 0)) (ROTL_ x n s) (ROTR_ x (CUn UMinus n) s).
Definition ASHL_ (x n : cexpr) : cexpr := CBin BShl x n.
Definition ASHR_ (x n : cexpr) : cexpr := CBin BShr x n.
Definition ASH_ (x n : cexpr) : cexpr := CCond (CBin (BRel Ge) n (CInt 0)) (ASHL_ x n) (ASHR_ x (CUn UMinus n)).
Definition DIV_ (x y : cexpr) : cexpr := CCond (CAndAlso (CBin (BRel Gt) x (CInt 0)) (CBin (BRel Gt) y (CInt 0))) (CBin BQuot x y) (CFun DIVF x y).
Definition MOD_ (x y : cexpr) : cexpr := CCond (CAndAlso (CBin (BRel Gt) x (CInt 0)) (CBin (BRel Gt) y (CInt 0))) (CBin BRem x y) (CFun MODF x y).
Definition ABS_ (x : cexpr) : cexpr := CCond (CBin (BRel Lt) x (CInt 0)) (CUn UMinus x) x.
Definition IN_ (x w : cexpr) (s : Z) : cexpr :=
  CAndAlso (CBin (BRel Lt) (CBin (BUns 32) x (CInt 0)) (CInt s)) (CUn (UAnd 1) (CBin BShr (CBin (BUns s) w (CInt 0)) x)).
Definition ISP_ (p : cexpr) (t : Z) : cexpr := CIs (CTag p) t.
Definition GUARDP_ (p : cexpr) (t : Z) : cexpr := CCond (ISP_ p t) p (CHalt (-5) p).

Section Generate.
Variables ranchk inxchk typchk : bool.

(** OPV.Mod 229-234 [SideEffects]. *)
Fixpoint SideEffects (e : expr) : bool :=
  match e with
  | EInt _ => false
  | ELoad d => SideEffects_d d
  | ECall _ _ | ESend _ _ _ => true
  | EUn _ e | EIs e _ | EGuard e _ | ELen e => SideEffects e
  | EBin _ a b | EAnd a b | EOr a b => SideEffects a || SideEffects b
  end
with SideEffects_d (d : desig) : bool :=
  match d with
  | DVar _ => false
  | DField d _ => SideEffects_d d
  | DIndex d _ e => SideEffects_d d || SideEffects e
  | DDeref e => SideEffects e
  | DElem e i => SideEffects e || SideEffects i
  end.
Definition literal (e : expr) : option Z := match e with EInt v => Some v | _ => None end.
(** OPV.Mod 470-645 [expr], 244-279 [SizeCast], [Convert] (without range checks the casts keep the values considered here). *)
Definition unary_c (o : unop) (call : bool) (c : cexpr) : cexpr :=
  match o with
  | Neg => CUn UMinus c
  | Abs => if call then CFun ABSF c (CInt 0) else ABS_ c
  | Cap => CUn (UAnd 95) c
  | Odd => CUn (UAnd 1) c
  | Not => CUn UNot c
  | Short s => if ranchk then if call then SHORTF_ c (CInt (2 ^ (s - 1))) else SHORT_ c (CInt (2 ^ (s - 1))) else c
  | Chr => if ranchk then if call then CHRF_ c else CHR_ c else CUn UByte c
  | SetOf s => CUn (UBit s) c
  end.
(** [k]: the right operand if it is a number; [call], [callr]: calls in the operation and in its right operand. *)
Definition binary_c (o : binop) (k : option Z) (call callr : bool) (a b : cexpr) : cexpr :=
  match o with
  | Add => CBin BAdd a b
  | Sub => CBin BSub a b
  | Mul => CBin BMul a b
  | Div => if call then CFun DIVF a b else DIV_ a b
  | Mod => if call then CFun MODF a b else MOD_ a b
  | Ash => match k with Some n => if n >=? 0 then ASHL_ a b else ASHR_ a (CInt (- n)) | None => if callr then CFun ASHF a b else ASH_ a b end
  | Lsh s => match k with Some n => if n >=? 0 then LSHL_ a b s else LSHR_ a (CInt (- n)) s | None => LSH_ a b s end
  | Rot s => match k with Some n => if n >=? 0 then ROTL_ a b s else ROTR_ a (CInt (- n)) s | None => ROT_ a b s end
  | In s => IN_ a b s
  | Upto s => CBin (BRng s) a b
  | Rel r => CBin (BRel r) a b
  end.
(** OPV.Mod 298-308 [Index]. *)
Definition index_c (open : bool) (e : expr) (c ub : cexpr) : cexpr :=
  if negb inxchk || match literal e with Some v => (v =? 0) || negb open | None => false end then c
  else if SideEffects e then CFun XF c ub else X_ c ub.
(** OPV.Mod 310-396 [design], 404-460 [ActualPar], 281-296 [TypeOf], 207-227 [Len]; OPC.Mod 408-427 [DefineTProcMacros] with SYSTEM.h 329 [__SEND]. *)
Fixpoint gen (e : expr) : cexpr :=
  match e with
  | EInt v => CInt v
  | ELoad d => CLoad (gen_d d)
  | ECall f a => CCall (CInt f) (gen_a a)
  | ESend m e a => CCall (CMethod (CTag (gen e)) m) (CVal (gen e) (gen_a a))
  | EUn o e => unary_c o (SideEffects e) (gen e)
  | EBin o a b => binary_c o (literal b) (SideEffects a || SideEffects b) (SideEffects b) (gen a) (gen b)
  | EAnd a b => CAndAlso (gen a) (gen b)
  | EOr a b => COrElse (gen a) (gen b)
  | EIs e t => ISP_ (gen e) t
  | EGuard e t => if typchk then GUARDP_ (gen e) t else gen e
  | ELen e => CLen (gen e)
  end
with gen_d (d : desig) : clval :=
  match d with
  | DVar i => LVar i
  | DField d k => LField (gen_d d) k
  | DIndex d n e => LIndex (gen_d d) (index_c false e (gen e) (CInt n))
  | DDeref e => LStar (gen e)
  | DElem e i => LIndex (LStar (gen e)) (index_c true i (gen i) (CLen (gen e)))
  end
with gen_a (a : args) : cargs :=
  match a with
  | ANil => CNil
  | AVal e a => CVal (gen e) (gen_a a)
  | AVar d a => CRef (gen_d d) (gen_a a)
  | ARec e a => CRef (LStar (gen e)) (CVal (CTag (gen e)) (gen_a a))
  | AOpen e a => CRef (LStar (gen e)) (CVal (CLen (gen e)) (gen_a a))
  end.
End Generate.

(** ** Execution of C, operands from left to right (C leaves the order open, except in &&, || and ?:).  Integers are unbounded (C72); shift counts outside the word, division
    by zero and the use of a null pointer are undefined. *)
Section Execute.
Variable result : history -> Z -> list val -> Z.
Variable mem : history -> loc -> Z.
Variable tag len : Z -> Z.
Variable extends : Z -> Z -> bool.
Variable method : Z -> Z -> Z.

Definition c_un (o : cun) (x : Z) : res Z :=
  match o with
  | UMinus => Ok (- x)
  | UNot => Ok (truth (x =? 0))
  | UAnd m => Ok (Z.land x m)
  | UBit s => if (0 <=? x) && (x <? s) then Ok (Z.shiftl 1 x) else UB
  | UByte => Ok (wrap_u 8 x)
  end.
(** [BRng]: __SETRNG, both bounds once.  [BCast], [BUns]: casts of the first operand. *)
Definition c_bin (o : cbin) (x y : Z) : res Z :=
  match o with
  | BAdd => Ok (x + y)
  | BSub => Ok (x - y)
  | BMul => Ok (x * y)
  | BQuot => if y =? 0 then UB else Ok (Z.quot x y)
  | BRem => if y =? 0 then UB else Ok (Z.rem x y)
  | BRel r => Ok (truth match r with Eq => x =? y | Ne => negb (x =? y) | Lt => x <? y | Le => x <=? y | Gt => x >? y | Ge => x >=? y end)
  | BShl => if (0 <=? y) && (y <? 64) then Ok (Z.shiftl x y) else UB
  | BShr => if (0 <=? y) && (y <? 64) then Ok (Z.shiftr x y) else UB
  | BOr => Ok (Z.lor x y)
  | BCast s => Ok (wrap_s s x)
  | BUns s => Ok (wrap_u s x)
  | BRng s => if (0 <=? x) && (x <? s) && (0 <=? s - 1 - y) && (s - 1 - y <? s)
              then Ok (Z.land (wrap_u s (Z.shiftl (-1) x)) (Z.shiftr (2 ^ s - 1) (s - 1 - y))) else UB
  end.
(** SYSTEM.h 119, 125, 187, 214; SYSTEM.c [SYSTEM_DIV], [SYSTEM_MOD] (C01). *)
Definition call_rt (r : routine) (x y : Z) : res Z :=
  match r with
  | XF => if wrap_u 64 x >=? wrap_u 64 y then Trap (-2) else Ok x
  | RF => if wrap_u 64 x >=? wrap_u 64 y then Trap (-8) else Ok x
  | DIVF => if y =? 0 then UB else Ok (x / y)
  | MODF => if y =? 0 then UB else Ok (x mod y)
  | ASHF => if (-64 <? y) && (y <? 64) then Ok (if y >=? 0 then Z.shiftl x y else Z.shiftr x (- y)) else UB
  | ABSF => Ok (if x >=? 0 then x else - x)
  end.
Definition object_c (p : Z) : res Z := if p =? 0 then UB else Ok p.
Fixpoint cev (c : cexpr) : M Z :=
  match c with
  | CInt v => ret v
  | CLoad l => do p <- clv l; fun h => (Ok (mem h p), h)
  | CCall f a => do f <- cev f; do vs <- cargv a; fun h => (Ok (result h f vs), Called f vs :: h)
  | CMethod t m => do t <- cev t; ret (method t m)
  | CUn o c => do x <- cev c; fail (c_un o x)
  | CBin o a b => do x <- cev a; do y <- cev b; fail (c_bin o x y)
  | CCond c a b => do x <- cev c; if x =? 0 then cev b else cev a
  | CAndAlso a b => do x <- cev a; if x =? 0 then ret 0 else do y <- cev b; ret (truth (negb (y =? 0)))
  | COrElse a b => do x <- cev a; if x =? 0 then do y <- cev b; ret (truth (negb (y =? 0))) else ret 1
  | CHalt k _ => fail (Trap k)
  | CFun r a b => do x <- cev a; do y <- cev b; fail (call_rt r x y)
  | CTag c => do p <- cev c; do p <- fail (object_c p); ret (tag p)
  | CLen c => do p <- cev c; do p <- fail (object_c p); ret (len p)
  | CIs c t => do x <- cev c; ret (truth (extends x t))
  end
with clv (l : clval) : M loc :=
  match l with
  | LVar i => ret (Global i, [])
  | LField l k => do p <- clv l; ret (fst p, k :: snd p)
  | LIndex l c => do p <- clv l; do i <- cev c; ret (fst p, i :: snd p)
  | LStar c => do p <- cev c; do p <- fail (object_c p); ret (Object p, [])
  end
with cargv (a : cargs) : M (list val) :=
  match a with
  | CNil => ret []
  | CVal c a => do v <- cev c; do vs <- cargv a; ret (Num v :: vs)
  | CRef l a => do p <- clv l; do vs <- cargv a; ret (Ref p :: vs)
  end.
End Execute.
