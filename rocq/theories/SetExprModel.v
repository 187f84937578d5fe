(** Set expressions: the nodes the compiler builds and what the C it writes for them computes. *)
From Verif Require Import Base ArithModel SetExprSpec.

(** Expression nodes of set type with their size in bytes, 4 or 8 (OPT.NodeDesc).  Types of equal size are taken as equal: a conversion between them writes
    nothing (OPV.Mod 244-256).  Element expressions are constants or integer variables without side effects. *)
Inductive node :=
| NConst (v sz : Z)
| NVar (i : nat) (sz : Z)
| NSetOf (i : nat) (sz : Z)
| NUpto (a b : elt) (sz : Z)
| NNeg (a : node) (sz : Z)
| NConv (a : node) (sz : Z)
| NBin (op : sop) (a b : node) (sz : Z).
Definition size (n : node) : Z :=
  match n with NConst _ s | NVar _ s | NSetOf _ s | NUpto _ _ s | NNeg _ s | NConv _ s | NBin _ _ _ s => s end.
Definition const_of (n : node) : option Z := match n with NConst v _ => Some v | _ => None end.

(** OPB.Mod 110-114 [SetSetType]: the smaller set type if the upper 32 bits are zero. *)
Definition SetSetType (v : Z) : Z := if Z.shiftr v 32 =? 0 then 4 else 8.

Section Build.
(** Size of SET in bytes: OPM.Mod 330-335, 4 with -O2 and -OC, 8 with -OV. *)
Variable ssz : Z.

(** OPB.Mod 828-842 [SetElem]; error 202. *)
Definition SetElem (e : elt) : option node :=
  match e with
  | EConst k => if (0 <=? k) && (k <=? 63) then Some (NConst (Z.shiftl 1 k) (SetSetType (Z.shiftl 1 k))) else None
  | EVar i => Some (NSetOf i ssz)
  end.
(** OPB.Mod 801-825 [SetRange]; errors 202 and 201.  The value of a constant range is computed by the compiler's own expression {k..l}, whose type is SET: the
    compiler is built with 32-bit sets, so this is __SETRNG(k, l, 32) (bootstrap/unix-88/OPB.c 1510). *)
Definition elt_const_ok (e : elt) : bool := match e with EConst k => (0 <=? k) && (k <=? 63) | EVar _ => true end.
Definition SetRange (a b : elt) : res (option node) :=
  if elt_const_ok a && elt_const_ok b then
    match a, b with
    | EConst k, EConst l => if k <=? l then let* v := SETRNG k l 32 in Ok (Some (NConst v ssz)) else Ok None
    | _, _ => Ok (Some (NUpto a b ssz))
    end
  else Ok None.
(** OPB.Mod 279-316 [MOp] minus on sets. *)
Definition Neg (n : node) : node :=
  match n with
  | NConst v sz => if sz =? 8 then NConst (set_compl 64 v) sz else NConst (Z.lxor v (2 ^ 32 - 1)) sz
  | _ => NNeg n (size n)
  end.
(** OPB.Mod 603-635 [Convert] to a larger set type. *)
Definition Convert (n : node) (sz : Z) : node := match n with NConst v _ => NConst v sz | _ => NConv n sz end.
(** OPB.Mod 680-683 [Op]: operands of different size are brought to the larger one. *)
Definition unify (z y : node) : node * node :=
  if size z =? size y then (z, y) else if size y <? size z then (z, Convert y (size z)) else (Convert z (size y), y).
(** OPB.Mod 510, 526, 560, 576 [ConstOp]. *)
Definition ConstOp (op : sop) (x y : Z) : Z :=
  match op with SPlus => set_plus x y | SMinus => set_minus 64 x y | STimes => set_times x y | SSlash => set_slash x y end.
(** OPB.Mod 637-799 [Op] on sets. *)
Definition Op (op : sop) (z y : node) : node :=
  match const_of z, const_of y with
  | Some x, Some v => let r := ConstOp op x v in NConst r (SetSetType r)
  | _, _ => let '(z, y) := unify z y in NBin op z y (size z)
  end.
(** OPB.Mod 98-104 [EmptySet], OPP.Mod 392-416 [Element], [Sets] and the parser's calls of [MOp] and [Op]: nodes are built from the operands up.  [None]: an
    error is reported. *)
Fixpoint build (e : source) : res (option node) :=
  match e with
  | SVar i w => Ok (Some (NVar i (w / 8)))
  | SEmpty => Ok (Some (NConst 0 ssz))
  | SElem e => Ok (SetElem e)
  | SRange a b => SetRange a b
  | SNeg a => let* n := build a in Ok (match n with Some n => Some (Neg n) | None => None end)
  | SBin op a b => let* z := build a in let* y := build b in
                   Ok (match z, y with Some z, Some y => Some (Op op z y) | _, _ => None end)
  end.
End Build.

(** ** What the written C computes *)

(** C types after promotion: int, unsigned int and their 64-bit counterparts. *)
Inductive cty := I32 | U32 | I64 | U64.
Definition cvt (t : cty) (v : Z) : Z := match t with I32 => wrap_s 32 v | U32 => wrap_u 32 v | I64 => wrap_s 64 v | U64 => wrap_u 64 v end.
(** The usual arithmetic conversions (ISO C 6.3.1.8). *)
Definition common (a b : cty) : cty :=
  match a, b with
  | U64, _ | _, U64 => U64
  | I64, _ | _, I64 => I64
  | U32, _ | _, U32 => U32
  | I32, I32 => I32
  end.
(** OPC.Mod 1242-1256 [Constant]: sets are written as hexadecimal literals without suffix.  Their type is the first of int, unsigned int, and the 64-bit types that holds them
    (ISO C 6.4.4.1). *)
Definition literal_type (v : Z) : cty := if v <? 2 ^ 31 then I32 else if v <? 2 ^ 32 then U32 else if v <? 2 ^ 63 then I64 else U64.
(** SYSTEM.h: SET32 is UINT32, SET64 is UINT64. *)
Definition set_type (sz : Z) : cty := if sz =? 4 then U32 else U64.
Definition c_not (t : cty) (v : Z) : Z := cvt t (Z.lnot v).
Definition c_op (op : sop) (a b : Z) : Z :=
  match op with SPlus => Z.lor a b | SMinus | STimes => Z.land a b | SSlash => Z.lxor a b end.

Section Values.
Variable vars : nat -> Z.
Variable ints : nat -> Z.

(** OPV.Mod 470-645 [expr] and 244-264 [SizeCast], [Convert] on these nodes, SYSTEM.h 220-221.  The complement in a difference is applied to the right operand as written,
    in its own C type (OPV.Mod 621).  The value of a binary operator is in its type already; [cvt] says so. *)
Fixpoint cev (n : node) : res (cty * Z) :=
  match n with
  | NConst v _ => Ok (literal_type v, v)
  | NVar i sz => Ok (set_type sz, vars i)
  | NSetOf i sz => let* v := SETOF (ints i) (8 * sz) in Ok (set_type sz, v)
  | NUpto a b sz => let* v := SETRNG (val ints a) (val ints b) (8 * sz) in Ok (set_type sz, v)
  | NNeg a _ => let* (t, v) := cev a in Ok (t, c_not t v)
  | NConv a sz => let* (t, v) := cev a in
                  Ok (if negb (size a =? sz) && ((size a >? 4) || negb (sz =? 4)) then (if sz =? 4 then (I32, wrap_s 32 v) else (I64, wrap_s 64 v)) else (t, v))
  | NBin op a b _ =>
      let* (ta, x) := cev a in let* (tb, y) := cev b in
      let y := match op with SMinus => c_not tb y | _ => y end in
      let t := common ta tb in Ok (t, cvt t (c_op op (cvt t x) (cvt t y)))
  end.

(** Assignment to a set variable of [w] bits: OPB.Mod 870-871 [CheckAssign] rejects larger types (error 113, here [None]); C converts to the type of the variable. *)
Definition Assign (w : Z) (n : node) : res (option Z) :=
  if w / 8 <? size n then Ok None else let* (_, v) := cev n in Ok (Some (wrap_u w v)).
(** s = t and s # t: OPB.Mod 439-447 (ConstCmp), 583-584, 781-785; OPV.Mod 590-604. *)
Definition Equal (z y : node) : res bool :=
  match const_of z, const_of y with
  | Some x, Some v => Ok (x =? v)
  | _, _ => let '(z, y) := unify z y in
            let* (ta, x) := cev z in let* (tb, v) := cev y in let t := common ta tb in Ok (cvt t x =? cvt t v)
  end.
(** x IN s: OPB.Mod 239-256 [In] (error 202 for a constant element outside the type), OPV.Mod 554 and 583-586, SYSTEM.h 218. *)
Definition In_ (x : elt) (n : node) : res (option bool) :=
  let cast t (v : Z) := if t =? 4 then wrap_u 32 v else wrap_u 64 v in
  let code := let* (_, v) := cev n in let* b := SET_IN (val ints x) (cast (size n) v) (8 * size n) in Ok (Some b) in
  match x with
  | EConst k => if (k <? 0) || (k >=? size n * 8) then Ok None
                else match const_of n with Some v => Ok (Some (Z.testbit v k)) | None => code end
  | EVar _ => code
  end.
End Values.
