(** Integer and character expressions: the nodes the compiler builds and what the C it writes for them computes. *)
From Verif Require Import Base ArithModel LitModel FoldModel NumSpec.
From Verif Require StrengthModel.

(** Expression nodes of integer and character type (OPT.NodeDesc).  There is one type for each integer size (OPT.IntType, Compiler.Mod 58-67).  [KVar]: a variable, or a
    call of a function whose result is env i. *)
Inductive node :=
| KConst (v : Z) (t : ty)
| KVar (i : nat) (t : ty) (call : bool)
| KConv (a : node) (t : ty)
| KNeg (a : node) (t : ty)
| KAbs (a : node) (t : ty)
| KCap (a : node)
| KAsh (a n : node) (t : ty)
| KMsk (a : node) (m : Z) (t : ty)
| KBin (op : binop) (a b : node) (t : ty).
Definition typ (n : node) : ty :=
  match n with KConst _ t | KVar _ t _ | KConv _ t | KNeg _ t | KAbs _ t | KAsh _ _ t | KMsk _ _ t | KBin _ _ _ t => t | KCap _ => TChar end.
Definition size (t : ty) : Z := match t with TInt s => s | TChar => 1 end.
Definition const_of (n : node) : option Z := match n with KConst v _ => Some v | _ => None end.
(** OPT.Mod: Char = 3, Int = 4. *)
Definition form (t : ty) : Z := match t with TChar => 3 | TInt _ => 4 end.
Definition same (a b : ty) : bool := match a, b with TInt s, TInt s' => s =? s' | TChar, TChar => true | _, _ => false end.

(** An error has been reported: [None].  *)
Definition on {A B} (r : res (option A)) (k : A -> res (option B)) : res (option B) := let* o := r in match o with Some a => k a | None => Ok None end.
Definition num (r : res folded) : res (option node) := let* f := r in Ok (match f with Val v s => Some (KConst v (TInt s)) | Err _ => None end).

Section Build.
Variables ss si sl : Z.

(** OPB.Mod 603-635 [Convert], integers and characters.  Errors 203 and 220. *)
Definition Convert (n : node) (t : ty) : res (option node) :=
  match n with
  | KConst v tn =>
      match tn, t with
      | TInt s, TInt d => if s >? d then let* s' := SetIntType v in Ok (if s' >? d then None else Some (KConst v t)) else Ok (Some (KConst v t))
      | TInt _, TChar => Ok (if (0 >? v) || (v >? 255) then None else Some (KConst v t))
      | TChar, _ => Ok (Some (KConst v t))
      end
  | KConv a tn =>
      if (form (typ a) <? form tn) || (form tn >? form t) then Ok (Some (if same (typ a) t then a else KConv a t))
      else Ok (Some (KConv n t))
  | _ => Ok (Some (KConv n t))
  end.
(** OPB.Mod 279-345 [MOp]: minus, abs, cap.  Errors 97, 111, 203. *)
Definition Neg (n : node) : res (option node) :=
  match typ n with
  | TInt _ => match const_of n with Some v => num (fold_neg (chk 64) v) | None => Ok (Some (KNeg n (typ n))) end
  | TChar => Ok None
  end.
Definition Abs (n : node) : res (option node) :=
  match typ n with
  | TInt _ => match const_of n with Some v => num (fold_abs (chk 64) v) | None => Ok (Some (KAbs n (typ n))) end
  | TChar => Ok None
  end.
Definition Cap (n : node) : res (option node) :=
  match typ n with
  | TChar => Ok (Some (match const_of n with Some v => KConst (CAP v) TChar | None => KCap n end))
  | TInt _ => Ok None
  end.
(** OPB.Mod 980-985, 1022-1026, 1027-1033, 1034-1041 [StPar0]: ORD, CHR, SHORT, LONG; OPT.Mod 254-268 [ShorterOrLongerType]. *)
Definition Ord (n : node) : res (option node) := match typ n with TChar => Convert n (TInt si) | TInt _ => Ok None end.
Definition Chr (n : node) : res (option node) := match typ n with TInt _ => Convert n TChar | TChar => Ok None end.
Definition Short (n : node) : res (option node) := match typ n with TInt s => Convert n (TInt (Shorter ss si sl s)) | TChar => Ok None end.
Definition Long (n : node) : res (option node) := match typ n with TInt s => Convert n (TInt (Longer ss si sl s)) | TChar => Convert n (TInt sl) end.
(** OPB.Mod 1062-1067 [StPar0] and 1176-1192 [StPar1]: ASH.  The type of a constant result is not set again. *)
Definition Ash (a n : node) : res (option node) :=
  match typ a, typ n with
  | TInt s, TInt _ =>
      on (if s <? sl then Convert a (TInt sl) else Ok (Some a)) (fun a =>
        match const_of a, const_of n with
        | Some x, Some k => num (fold_ash (chk 64) sl x (size (typ a)) k)
        | _, _ => Ok (Some (KAsh a n (typ a)))
        end)
  | _, _ => Ok None
  end.
(** OPB.Mod 484-580 [ConstOp] on integers. *)
Definition ConstOp (op : binop) (x y : Z) : res (option node) :=
  num (match op with
       | Add => fold_plus (chk 64) x y
       | Sub => fold_minus (chk 64) x y
       | Mul => fold_times (chk 64) x y
       | Div => fold_div (chk 64) x y
       | Mod => fold_mod (chk 64) x y
       end).
(** OPB.Mod 674-681 [Op]: operands of different integer types are brought to the larger one (error 100 for other mixtures). *)
Definition unify (z y : node) : res (option (node * node)) :=
  if same (typ z) (typ y) then Ok (Some (z, y))
  else match typ z, typ y with
       | TInt s, TInt s' => if s' <? s then on (Convert y (typ z)) (fun y => Ok (Some (z, y))) else on (Convert z (typ y)) (fun z => Ok (Some (z, y)))
       | _, _ => Ok None
       end.
(** OPB.Mod 257-263 [log]: whether val is a power of two, and which. *)
Definition power (val : Z) (k : Z -> node) (other : node) : res (option node) :=
  let* (l, exp) := StrengthModel.log val in Ok (Some (if l =? 1 then k exp else other)).
Definition is (v : Z) (n : node) : bool := match const_of n with Some c => c =? v | None => false end.
(** OPB.Mod 702-772 [Op]: the node for two operands of the same type t, not both constant; errors 105, 103, 104, 106 (type) and 205 (zero divisor). *)
Definition reduce (op : binop) (z y : node) (t : ty) : res (option node) :=
  let exp_node e := KConst e (TInt ss) in
  match op with
  | Mul =>
      match const_of z, const_of y with
      | Some val, _ => if val =? 1 then Ok (Some y) else if val =? 0 then Ok (Some z) else power val (fun e => KAsh y (exp_node e) t) (KBin Mul z y t)
      | None, Some val => if val =? 1 then Ok (Some z) else if val =? 0 then Ok (Some y) else power val (fun e => KAsh z (exp_node e) t) (KBin Mul z y t)
      | None, None => Ok (Some (KBin Mul z y t))
      end
  | Div =>
      match const_of y with
      | Some val => if val =? 0 then Ok None else if val =? 1 then Ok (Some z) else power val (fun e => KAsh z (exp_node (- e)) t) (KBin Div z y t)
      | None => Ok (Some (KBin Div z y t))
      end
  | Mod =>
      match const_of y with
      | Some val => if val =? 0 then Ok None else
                    let* (l, exp) := StrengthModel.log val in
                    if l =? 1 then let* m := ASH (-1) exp in Ok (Some (KMsk z m t)) else Ok (Some (KBin Mod z y t))
      | None => Ok (Some (KBin Mod z y t))
      end
  | Add => Ok (Some (if is 0 z then y else if is 0 y then z else KBin Add z y t))
  | Sub => Ok (Some (if is 0 y then z else KBin Sub z y t))
  end.
(** OPB.Mod 637-799 [Op], arithmetic.  Characters cannot be operands. *)
Definition Op (op : binop) (z y : node) : res (option node) :=
  match typ z, typ y with
  | TInt _, TInt _ =>
      match const_of z, const_of y with
      | Some x, Some v => ConstOp op x v
      | _, _ => on (unify z y) (fun p => let '(z, y) := p in reduce op z y (typ z))
      end
  | _, _ => Ok None
  end.
(** The parser's calls of these, from the operands up; literals: OPB.Mod 116-121 [NewIntConst] and OPP.Mod 480-485. *)
Fixpoint build (e : source) : res (option node) :=
  match e with
  | SInt v => num (typed v)
  | SChar c => Ok (Some (KConst c TChar))
  | SVar i t call => Ok (Some (KVar i t call))
  | SNeg a => on (build a) Neg
  | SAbs a => on (build a) Abs
  | SOrd a => on (build a) Ord
  | SChr a => on (build a) Chr
  | SCap a => on (build a) Cap
  | SShort a => on (build a) Short
  | SLong a => on (build a) Long
  | SAsh a n => on (build a) (fun a => on (build n) (Ash a))
  | SBin op a b => on (build a) (fun z => on (build b) (Op op z))
  end.
End Build.

(** ** What the written C computes *)

(** C types: signed of w bits, and the unsigned 8-bit CHAR. *)
Inductive cty := CS (w : Z) | CU8.
(** Width after the integer promotions; the usual arithmetic conversions take the larger (ISO C 6.3.1.1, 6.3.1.8).  Values are kept by them. *)
Definition pw (t : cty) : Z := match t with CS w => Z.max 32 w | CU8 => 32 end.
Definition bytes (t : cty) : Z := match t with CS w => w / 8 | CU8 => 1 end.
Definition ctype (t : ty) : cty := match t with TInt s => CS (8 * s) | TChar => CU8 end.
(** OPC.Mod 1231-1239 [Constant], OPM.Mod 688-704 [WriteInt] (C48): int, or long long if the value needs it; character constants have type int in C. *)
Definition literal (v : Z) : cty := if in_intb 32 v then CS 32 else CS 64.

(** OPV.Mod 229-234 [SideEffects]: there is a call in the expression. *)
Fixpoint SideEffects (n : node) : bool :=
  match n with
  | KConst _ _ => false
  | KVar _ _ call => call
  | KConv a _ | KNeg a _ | KAbs a _ | KCap a | KMsk a _ _ => SideEffects a
  | KAsh a b _ | KBin _ a b _ => SideEffects a || SideEffects b
  end.

Section Values.
(** Range checks are generated (option -r). *)
Variable ranchk : bool.
Variable env : nat -> Z.

(** OPV.Mod 244-256 [SizeCast]. *)
Definition SizeCast (from to : Z) (call : bool) (c : cty) (x : Z) : res (cty * Z) :=
  if (to <? from) && ranchk then
    let ub := 2 ^ (8 * to - 1) in
    let* v := (if call then SHORTF (Z.max (pw c) (pw (literal ub))) x ub else SHORT_inline x ub) in Ok (CS 32, v)
  else Ok (if negb (from =? to) && ((from >? 4) || negb (to =? 4)) then (CS (8 * to), wrap_s (8 * to) x) else (c, x)).
(** OPV.Mod 470-645 [expr], 258-279 [Convert] and SYSTEM.h 125-130, 185-216. *)
Fixpoint cev (n : node) : res (cty * Z) :=
  match n with
  | KConst v _ => Ok (literal v, v)
  | KVar i t _ => Ok (ctype t, env i)
  | KConv a t =>
      let* (c, x) := cev a in
      match t with
      | TInt to => SizeCast (size (typ a)) to (SideEffects a) c x
      | TChar => if ranchk then let* v := (if SideEffects a then CHRF x else CHR_inline x) in Ok (CU8, v) else Ok (CU8, wrap_u 8 x)
      end
  | KNeg a _ => let* (c, x) := cev a in let* v := chk (pw c) (- x) in Ok (CS (pw c), v)
  | KAbs a _ =>
      let* (c, x) := cev a in
      if SideEffects a then
        let* v := ABSF (bytes c) x in Ok (if size (typ a) <=? 4 then (CS 32, wrap_s 32 v) else (CS 64, v))
      else let* v := ABS_inline (pw c) x in Ok (CS (pw c), v)
  | KCap a => let* (_, x) := cev a in Ok (CU8, CAP x)
  | KAsh a k _ => let* (_, x) := cev a in let* (_, k) := cev k in let* v := ASH x k in Ok (CS 64, v)
  | KMsk a m _ => let* (c, x) := cev a in Ok (CS (Z.max (pw c) (pw (literal m))), Z.land x (Z.lnot m))
  | KBin op a b t =>
      let* (ca, x) := cev a in let* (cb, y) := cev b in
      let w := Z.max (pw ca) (pw cb) in
      let call := SideEffects a || SideEffects b in
      match op with
      | Add => let* v := chk w (x + y) in Ok (CS w, v)
      | Sub => let* v := chk w (x - y) in Ok (CS w, v)
      | Mul => let* v := chk w (x * y) in Ok (CS w, v)
      | Div => if call then let* v := SYSTEM_DIV x y in Ok (if size t <=? 4 then (CS 32, wrap_s 32 v) else (CS 64, v))
               else let* v := DIV_inline w x y in Ok (CS 64, v)
      | Mod => let* v := (if call then SYSTEM_MOD x y else MOD_inline w x y) in Ok (if size t <=? 4 then (CS 32, wrap_s 32 v) else (CS 64, v))
      end
  end.

(** Assignment to a variable of type t: OPB.Mod 868-871 [CheckAssign] (error 113: [None]); C converts to the type of the variable. *)
Definition convert_c (t : ty) (v : Z) : Z := match t with TInt d => wrap_s (8 * d) v | TChar => wrap_u 8 v end.
Definition Assign (t : ty) (n : node) : res (option Z) :=
  let ok := match t, typ n with TInt d, TInt s => negb (d <? s) | TChar, TChar => true | _, _ => false end in
  if ok then let* (_, v) := cev n in Ok (Some (convert_c t v)) else Ok None.
(** INC(v, x) and DEC(v, x) of an integer variable of d bytes that holds old: OPB.Mod 1130-1143 [StPar1] (error 111: [None]), OPV.Mod 833-834, OPC.Mod 1197-1200. *)
Definition Inc (decrement : bool) (d old : Z) (n : node) : res (option Z) :=
  on (match typ n with
      | TInt s => if s =? d then Ok (Some n) else match const_of n with
                  | Some _ => Convert n (TInt d)
                  | None => if s <=? d then Convert n (TInt d) else Ok None
                  end
      | TChar => Ok None
      end)
     (fun n => let* (c, x) := cev n in
               let* v := chk (Z.max (pw (CS (8 * d))) (pw c)) (if decrement then old - x else old + x) in Ok (Some (wrap_s (8 * d) v))).
(** ODD: OPB.Mod 340-345, OPV.Mod 526. *)
Definition Odd (n : node) : res (option bool) :=
  match typ n with
  | TInt _ => match const_of n with Some v => Ok (Some (ODD v)) | None => let* (_, x) := cev n in Ok (Some (ODD x)) end
  | TChar => Ok None
  end.
(** Relations: OPB.Mod 422-447 [ConstCmp], 583-598, 781-797; OPV.Mod 590-604.  Characters are compared with characters only. *)
Definition relation_of (r : rel) : relation := match r with Eq => REql | Ne => RNeq | Lt => RLss | Le => RLeq | Gt => RGtr | Ge => RGeq end.
Definition c_rel (r : rel) (x y : Z) : bool :=
  match r with Eq => x =? y | Ne => negb (x =? y) | Lt => x <? y | Le => x <=? y | Gt => x >? y | Ge => x >=? y end.
Definition Compare (r : rel) (z y : node) : res (option bool) :=
  if form (typ z) =? form (typ y) then
    match const_of z, const_of y with
    | Some x, Some v => Ok (Some (fold_cmp (relation_of r) x v))
    | _, _ => on (unify z y) (fun p => let '(z, y) := p in let* (_, x) := cev z in let* (_, v) := cev y in Ok (Some (c_rel r x v)))
    end
  else Ok None.
End Values.
