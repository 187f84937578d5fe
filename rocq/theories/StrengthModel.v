(** Binary operators built by the compiler: conversion of the operands, folding and replacement by cheaper operations. *)
From Verif Require Import Base ArithModel LitModel FoldModel.

(** Types of expressions: integers of 1, 2, 4 or 8 bytes and BOOLEAN.  Types of equal size are taken as equal (a conversion between them
    writes nothing: OPV.Mod 245-256). *)
Inductive ty := TInt (s : Z) | TBool.
Inductive binop := Times | Divide | Modulo | Plus | Minus | Shift | Mask | AndOp | OrOp | Rel (r : relation).
(** Expression nodes (OPT.NodeDesc).  [Leaf] stands for any other expression (variable, call, ...), known only by its type. *)
Inductive expr :=
| Const (v : Z) (t : ty)
| Leaf (i : nat) (t : ty)
| Conv (e : expr) (t : ty)
| Bin (op : binop) (a b : expr) (t : ty).
Definition ty_of (e : expr) : ty := match e with Const _ t | Leaf _ t | Conv _ t | Bin _ _ _ t => t end.

(** OPB.Mod 257-263 [log]: x with its factors 2 removed, and their number exp. *)
Fixpoint log_loop (fuel : nat) (x exp : Z) : res (Z * Z) :=
  match fuel with
  | O => Fuel
  | S f => if negb (Z.odd x) then log_loop f (x / 2) (exp + 1) else Ok (x, exp)
  end.
Definition log (x : Z) : res (Z * Z) := if x >? 0 then log_loop 64 x 0 else Ok (x, 0).

(** OPB.Mod 603-635 [Convert] of an integer expression to a larger integer type: constants just change their type. *)
Definition Convert (e : expr) (s : Z) : expr := match e with Const v _ => Const v (TInt s) | _ => Conv e (TInt s) end.
(** OPB.Mod 674-681 [Op]: operands of different integer sizes are brought to the larger one; other mixtures are errors. *)
Definition unify (z y : expr) : option (expr * expr) :=
  match ty_of z, ty_of y with
  | TInt sz, TInt sy => Some (if sz =? sy then (z, y) else if sy <? sz then (z, Convert y sz) else (Convert z sy, y))
  | TBool, TBool => Some (z, y)
  | _, _ => None
  end.

Definition const_of (e : expr) : option Z := match e with Const v _ => Some v | _ => None end.
Definition is (v : Z) (e : expr) : bool := match const_of e with Some c => c =? v | None => false end.
Definition b2z (b : bool) : Z := if b then 1 else 0.

(** OPB.Mod 422-601 [ConstOp] on integers and Booleans. *)
Definition ConstOp (op : binop) (x y : Z) (tx tz : ty) : res (option expr) :=
  let num r := let* f := r in Ok (match f with Val v s => Some (Const v (TInt s)) | Err _ => None end) in
  match tx, tz with
  | TInt _, TInt _ =>
      match op with
      | Times => num (fold_times (chk 64) x y)
      | Divide => num (fold_div (chk 64) x y)
      | Modulo => num (fold_mod (chk 64) x y)
      | Plus => num (fold_plus (chk 64) x y)
      | Minus => num (fold_minus (chk 64) x y)
      | Rel r => Ok (Some (Const (b2z (fold_cmp r x y)) TBool))
      | _ => Ok None
      end
  | TBool, TBool =>
      match op with
      | AndOp => Ok (Some (Const (b2z (negb (x =? 0) && negb (y =? 0))) TBool))
      | OrOp => Ok (Some (Const (b2z (negb (x =? 0) || negb (y =? 0))) TBool))
      | _ => Ok None
      end
  | _, _ => Ok None
  end.

(** OPB.Mod 702-797 [Op]: the new node for operands of the same type that are not both constant.  The right operand of a shift or mask
    is the node of the constant with its new value.  Relations of Booleans are left out. *)
Definition reduce (op : binop) (z y : expr) : res (option expr) :=
  let typ := ty_of z in
  match op, typ with
  | Times, TInt _ =>
      match const_of z, const_of y with
      | Some val, _ =>
          if val =? 1 then Ok (Some y)
          else if val =? 0 then Ok (Some z)
          else let* (l, exp) := log val in if l =? 1 then Ok (Some (Bin Shift y (Const exp (TInt 1)) typ)) else Ok (Some (Bin Times z y typ))
      | None, Some val =>
          if val =? 1 then Ok (Some z)
          else if val =? 0 then Ok (Some y)
          else let* (l, exp) := log val in if l =? 1 then Ok (Some (Bin Shift z (Const exp (TInt 1)) typ)) else Ok (Some (Bin Times z y typ))
      | None, None => Ok (Some (Bin Times z y typ))
      end
  | Divide, TInt _ =>
      match const_of y with
      | Some val =>
          if val =? 0 then Ok None
          else if val =? 1 then Ok (Some z)
          else let* (l, exp) := log val in if l =? 1 then Ok (Some (Bin Shift z (Const (- exp) (TInt 1)) typ)) else Ok (Some (Bin Divide z y typ))
      | None => Ok (Some (Bin Divide z y typ))
      end
  | Modulo, TInt _ =>
      match const_of y with
      | Some val =>
          if val =? 0 then Ok None
          else let* (l, exp) := log val in if l =? 1 then let* m := ASH (-1) exp in Ok (Some (Bin Mask z (Const m typ) typ)) else Ok (Some (Bin Modulo z y typ))
      | None => Ok (Some (Bin Modulo z y typ))
      end
  | Plus, TInt _ => Ok (Some (if is 0 z then y else if is 0 y then z else Bin Plus z y typ))
  | Minus, TInt _ => Ok (Some (if is 0 y then z else Bin Minus z y typ))
  | Rel r, TInt _ => Ok (Some (Bin (Rel r) z y TBool))
  | AndOp, TBool =>
      Ok (Some (match const_of z with
                | Some v => if negb (v =? 0) then y else z
                | None => match const_of y with Some v => if negb (v =? 0) then z else Bin AndOp z y TBool | None => Bin AndOp z y TBool end
                end))
  | OrOp, TBool =>
      Ok (Some (match const_of z with
                | Some v => if v =? 0 then y else z
                | None => match const_of y with Some v => if v =? 0 then z else Bin OrOp z y TBool | None => Bin OrOp z y TBool end
                end))
  | _, _ => Ok None
  end.
(** OPB.Mod 637-799 [Op] for integers and Booleans, the operators written in programs. *)
Definition Op (op : binop) (z y : expr) : res (option expr) :=
  match const_of z, const_of y with
  | Some x, Some v => ConstOp op x v (ty_of z) (ty_of y)
  | _, _ => match unify z y with None => Ok None | Some (z, y) => reduce op z y end
  end.

(** Expressions as written, and the nodes built for them bottom up (OPP.Mod 418-500 [Factor], [Term], [SimpleExpression], [Expression]): the operands, then [Op]. *)
Inductive source := SLit (v : Z) | SBool (b : bool) | SLeaf (i : nat) (t : ty) | SBin (op : binop) (a b : source).
Fixpoint build (e : source) : res (option expr) :=
  match e with
  | SLit v => let* s := SetIntType v in Ok (Some (Const v (TInt s)))
  | SBool b => Ok (Some (Const (b2z b) TBool))
  | SLeaf i t => Ok (Some (Leaf i t))
  | SBin op a b => let* z := build a in let* y := build b in match z, y with Some z, Some y => Op op z y | _, _ => Ok None end
  end.

(** ** What the written C computes *)
Section Values.
Variable St : Type.
Variable leaf : nat -> ty -> St -> res (Z * St).

(** Width of the C arithmetic on operands of the given type: integer promotion.  Where an operand has a wider C type (shifts and __DIV yield INT64) the
    arithmetic is done in more bits; the model calls it undefined already when it overflows the narrower width. *)
Definition width (t : ty) : Z := match t with TInt s => Z.max 32 (8 * s) | TBool => 32 end.
(** OPV.Mod 244-256 [SizeCast] to a larger size: a cast, unless C converts anyway. *)
Definition cast (from to : ty) (v : Z) : Z :=
  match from, to with
  | TInt n, TInt t => if negb (n =? t) && ((n >? 4) || negb (t =? 4)) then wrap_s (8 * t) v else v
  | _, _ => v
  end.
Definition holds (r : relation) (x y : Z) : bool :=
  match r with REql => x =? y | RNeq => negb (x =? y) | RLss => x <? y | RLeq => x <=? y | RGtr => x >? y | RGeq => x >=? y end.
(** OPV.Mod 470-645 [expr] for these nodes, SYSTEM.h 183-199 and 223 (__MASK).  The operands are evaluated from left to right; C leaves the order open. *)
Definition apply (op : binop) (w x y : Z) : res Z :=
  match op with
  | Times => chk w (x * y)
  | Plus => chk w (x + y)
  | Minus => chk w (x - y)
  | Divide => DIV_inline w x y
  | Modulo => MOD_inline w x y
  | Shift => ASH x y
  | Mask => Ok (Z.land x (Z.lnot y))
  | Rel r => Ok (b2z (holds r x y))
  | AndOp | OrOp => UB
  end.
Fixpoint ev (e : expr) (st : St) : res (Z * St) :=
  match e with
  | Const v _ => Ok (v, st)
  | Leaf i t => leaf i t st
  | Conv a t => let* (v, st) := ev a st in Ok (cast (ty_of a) t v, st)
  | Bin AndOp a b _ => let* (x, st) := ev a st in if x =? 0 then Ok (0, st) else let* (y, st) := ev b st in Ok (b2z (negb (y =? 0)), st)
  | Bin OrOp a b _ => let* (x, st) := ev a st in if x =? 0 then let* (y, st) := ev b st in Ok (b2z (negb (y =? 0)), st) else Ok (1, st)
  | Bin op a b t => let* (x, st) := ev a st in let* (y, st) := ev b st in let* v := apply op (width (ty_of a)) x y in Ok (v, st)
  end.
(** The operation as written, with its operands converted but not replaced. *)
Definition plain (op : binop) (z y : expr) : option expr :=
  match unify z y with Some (z, y) => Some (Bin op z y (match op with Rel _ => TBool | _ => ty_of z end)) | None => None end.
End Values.
