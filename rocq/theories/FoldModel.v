(** Evaluation of integer and set constants by the compiler. *)
From Verif Require Import Base ArithModel LitModel.

(** What folding yields: the new value and type (its size in bytes), or the number of the error reported. *)
Inductive folded := Val (v size : Z) | Err (n : Z).

Definition MAXI : Z := 9223372036854775807.
Definition MINI : Z := - (9223372036854775808).

(** The compiler is itself compiled to C.  [arith] is what signed 64-bit overflow does there: [chk 64] as the C standard says,
    or [wrapping] as with a compiler that lets it wrap around. *)
Definition wrapping (v : Z) : res Z := Ok (wrap_s 64 v).
(** SYSTEM.h 194 [__DIV] and 199 [__MOD] as used by the compiler's own DIV and MOD. *)
Definition DIV_ (arith : Z -> res Z) (x y : Z) : res Z := if (x >? 0) && (y >? 0) then c_div 64 x y else SYSTEM_DIV_with arith x y.
Definition MOD_ (arith : Z -> res Z) (x y : Z) : res Z := if (x >? 0) && (y >? 0) then c_rem 64 x y else SYSTEM_MOD_with arith x y.
(** A result with its type set by OPB.Mod 106-108 [SetIntType]. *)
Definition typed (v : Z) : res folded := let* s := SetIntType v in Ok (Val v s).

(** A disjunction of conditions evaluated from left to right, stopping at the first that holds. *)
Fixpoint any (cs : list (res bool)) : res bool :=
  match cs with
  | [] => Ok false
  | c :: cs => let* b := c in if b then Ok true else any cs
  end.
(** [g & q], q evaluated only if g holds. *)
Definition guarded (g : bool) (q : res bool) : res bool := if g then q else Ok false.

Section Folding.
Variable arith : Z -> res Z.

(** OPB.Mod 302-307 [MOp], minus. *)
Definition fold_neg (x : Z) : res folded := if x =? MINI then Ok (Err 203) else let* v := arith (- x) in typed v.
(** OPB.Mod 321-326 [MOp], abs. *)
Definition fold_abs (x : Z) : res folded := if x =? MINI then Ok (Err 203) else let* v := (if x <? 0 then arith (- x) else Ok x) in typed v.
(** OPB.Mod 494-503 [ConstOp], times: the test, then the product. *)
Definition times_ok (xv yv : Z) : res bool :=
  any [Ok ((xv =? 0) || (yv =? 0));
       guarded ((xv >? 0) && (yv >? 0)) (let* q := DIV_ arith MAXI xv in Ok (yv <=? q));
       guarded ((xv >? 0) && (yv <? 0)) (let* q := DIV_ arith MINI xv in Ok (yv >=? q));
       guarded ((xv <? 0) && (yv >? 0)) (let* q := DIV_ arith MINI yv in Ok (xv >=? q));
       guarded ((xv <? 0) && (yv <? 0) && negb (xv =? MINI) && negb (yv =? MINI))
                    (let* nx := arith (- xv) in let* ny := arith (- yv) in let* q := DIV_ arith MAXI ny in Ok (nx <=? q))].
Definition fold_times (xv yv : Z) : res folded :=
  let* ok := times_ok xv yv in if ok then let* v := arith (xv * yv) in typed v else Ok (Err 204).
(** OPB.Mod 530-536 [ConstOp], div. *)
Definition fold_div (x y : Z) : res folded := if negb (y =? 0) then let* v := DIV_ arith x y in typed v else Ok (Err 205).
(** OPB.Mod 537-543 [ConstOp], mod. *)
Definition fold_mod (x y : Z) : res folded := if negb (y =? 0) then let* v := MOD_ arith x y in typed v else Ok (Err 205).
(** OPB.Mod 548-553 [ConstOp], plus. *)
Definition fold_plus (x y : Z) : res folded :=
  let* temp := guarded (y >=? 0) (let* d := arith (MAXI - y) in Ok (x <=? d)) in
  let* ok := any [Ok temp; guarded (y <? 0) (let* d := arith (MINI - y) in Ok (x >=? d))] in
  if ok then let* v := arith (x + y) in typed v else Ok (Err 206).
(** OPB.Mod 564-569 [ConstOp], minus. *)
Definition fold_minus (x y : Z) : res folded :=
  let* ok := any [guarded (y >=? 0) (let* d := arith (MINI + y) in Ok (x >=? d)); guarded (y <? 0) (let* d := arith (MAXI + y) in Ok (x <=? d))] in
  if ok then let* v := arith (x - y) in typed v else Ok (Err 207).
(** OPB.Mod 1062-1067 and 1177-1191 (StPar0, StPar1), ASH of two constants: the type is that of the first operand, at least LONGINT ([lint] bytes);
    it is not set again.  maxExp = 62 (OPB.Mod 1513). *)
Definition fold_ash (lint x sx n : Z) : res folded :=
  let s := if sx <? lint then lint else sx in
  if (-62 >? n) || (n >? 62) then Ok (Err 208)
  else if n >=? 0 then
    let* a := (if x <? 0 then arith (- x) else Ok x) in
    let* p := ASH 1 n in
    let* q := DIV_ arith MAXI p in
    if a <=? q then let* v := arith (x * p) in Ok (Val v s) else Ok (Err 208)
  else let* v := ASH x n in Ok (Val v s).

(** Constant expressions over integer literals; an operand with an error ends the compilation in error (OPM.noerr), so the error is
    passed on.  OPP builds the tree bottom up: the left operand, the right operand, then the operator. *)
Inductive cexpr :=
| Lit (v : Z)
| Neg (a : cexpr) | Abs (a : cexpr)
| Add (a b : cexpr) | Sub (a b : cexpr) | Mul (a b : cexpr) | Div (a b : cexpr) | Mod (a b : cexpr) | Ash (a b : cexpr).

Definition on (r : res folded) (k : Z -> Z -> res folded) : res folded := let* f := r in match f with Val v s => k v s | Err n => Ok (Err n) end.
(** OPB.Mod 116-121 [NewIntConst], MOp, Op and StPar1 on constants. *)
Fixpoint fold (lint : Z) (e : cexpr) : res folded :=
  match e with
  | Lit v => typed v
  | Neg a => on (fold lint a) (fun x _ => fold_neg x)
  | Abs a => on (fold lint a) (fun x _ => fold_abs x)
  | Add a b => on (fold lint a) (fun x _ => on (fold lint b) (fun y _ => fold_plus x y))
  | Sub a b => on (fold lint a) (fun x _ => on (fold lint b) (fun y _ => fold_minus x y))
  | Mul a b => on (fold lint a) (fun x _ => on (fold lint b) (fun y _ => fold_times x y))
  | Div a b => on (fold lint a) (fun x _ => on (fold lint b) (fun y _ => fold_div x y))
  | Mod a b => on (fold lint a) (fun x _ => on (fold lint b) (fun y _ => fold_mod x y))
  | Ash a b => on (fold lint a) (fun x s => on (fold lint b) (fun n _ => fold_ash lint x s n))
  end.
End Folding.

(** OPB.Mod 432-436 [ConstCmp] on integers and 584-598: the relations, in the order eql, neq, lss, leq, gtr, geq of OPS. *)
Inductive order := lss | gtr | eql.
Definition ConstCmp (x y : Z) : order := if x <? y then lss else if x >? y then gtr else eql.
Inductive relation := REql | RNeq | RLss | RLeq | RGtr | RGeq.
Definition fold_cmp (r : relation) (x y : Z) : bool :=
  match r, ConstCmp x y with
  | REql, eql => true | REql, _ => false
  | RNeq, eql => false | RNeq, _ => true
  | RLss, lss => true | RLss, _ => false
  | RLeq, gtr => false | RLeq, _ => true
  | RGtr, gtr => true | RGtr, _ => false
  | RGeq, lss => false | RGeq, _ => true
  end.

(** OPB.Mod 603-614 [Convert] of an integer constant of type size sx to an integer type. *)
Definition convert_const (v sx to : Z) : res folded :=
  if sx >? to then let* s := SetIntType v in if s >? to then Ok (Err 203) else Ok (Val v to) else Ok (Val v to).

(** ** Sets: setval is a 64-bit word *)
(** OPB.Mod 110-114 [SetSetType]: 4 bytes if the upper half of the word is zero (little-endian). *)
Definition SetSetType (s : Z) : Z := if Z.shiftr s 32 =? 0 then 4 else 8.
Inductive setop := SPlus | SMinus | STimes | SSlash.
(** OPB.Mod 509-510, 525-526, 560-561, 576-577 [ConstOp] on sets. *)
Definition fold_set (op : setop) (a b : Z) : Z * Z :=
  let v := match op with SPlus => set_plus a b | SMinus => set_minus 64 a b | STimes => set_times a b | SSlash => set_slash a b end in (v, SetSetType v).
(** OPB.Mod 309-313 [MOp], minus of a set constant of the given size. *)
Definition fold_compl (a size : Z) : Z * Z := if size =? 8 then (set_compl 64 a, size) else (set_slash a 4294967295, size).
