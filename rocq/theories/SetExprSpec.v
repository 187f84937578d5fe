(** Set expressions as written in a program, and the sets they denote. *)
From Verif Require Import Base.

(** Elements: a constant or an integer variable.  Sets: a variable with elements 0..w-1, w = 32 or 64, the empty set, constructors of an
    element or a range, complement, and the four binary operators.  A constructor with several parts is the union of its parts. *)
Inductive elt := EConst (k : Z) | EVar (i : nat).
Inductive sop := SPlus | SMinus | STimes | SSlash.
Inductive source :=
| SVar (i : nat) (w : Z)
| SEmpty
| SElem (e : elt)
| SRange (a b : elt)
| SNeg (a : source)
| SBin (op : sop) (a b : source).

Section Meaning.
(** Number of elements of the type SET (32 or 64), the words held by the set variables and the values of the integer variables. *)
Variable S : Z.
Variable vars : nat -> Z.
Variable ints : nat -> Z.

Definition val (e : elt) : Z := match e with EConst k => k | EVar i => ints i end.
Definition const_elt (e : elt) : bool := match e with EConst _ => true | EVar _ => false end.
Fixpoint is_const (e : source) : bool :=
  match e with
  | SVar _ _ => false
  | SEmpty => true
  | SElem e => const_elt e
  | SRange a b => const_elt a && const_elt b
  | SNeg a => is_const a
  | SBin _ a b => is_const a && is_const b
  end.
Definition apply_op (op : sop) (p q : bool) : bool :=
  match op with SPlus => p || q | SMinus => p && negb q | STimes => p && q | SSlash => xorb p q end.
Definition upper : list Z := map (fun k => 32 + Z.of_nat k) (seq 0 32).

(** The elements of the set, and the number of elements its type has room for.  A constant has the smallest type that holds it, but its complement is
    taken with respect to all elements of SET; an operation is done in the larger of the types of its operands. *)
Fixpoint sem (e : source) : (Z -> bool) * Z :=
  match e with
  | SVar i w => (fun x => Z.testbit (vars i) x, w)
  | SEmpty => (fun _ => false, S)
  | SElem e => (fun x => x =? val e, if const_elt e then (if val e <? 32 then 32 else 64) else S)
  | SRange a b => (fun x => (val a <=? x) && (x <=? val b), S)
  | SNeg a => let '(p, w) := sem a in
              let w := if is_const a then Z.max S w else w in
              (fun x => (0 <=? x) && (x <? w) && negb (p x), w)
  | SBin op a b => let '(p, v) := sem a in let '(q, w) := sem b in
                   let r := fun x => apply_op op (p x) (q x) in
                   (r, if is_const a && is_const b then (if existsb r upper then 64 else 32) else Z.max v w)
  end.
Definition has (e : source) (x : Z) : bool := fst (sem e) x.
Definition bits (e : source) : Z := snd (sem e).

(** The rules of the language: set variables hold sets of their type; elements given by variables and the bounds of ranges lie in the type SET; a constant
    element may also need the larger set type; a constant range is not empty. *)
Fixpoint legal (e : source) : Prop :=
  match e with
  | SVar i w => (w = 32 \/ w = 64) /\ 0 <= vars i < 2 ^ w
  | SEmpty => True
  | SElem e => 0 <= val e < (if const_elt e then 64 else S)
  | SRange a b => 0 <= val a < S /\ 0 <= val b < S /\ (const_elt a && const_elt b = true -> val a <= val b)
  | SNeg a => legal a
  | SBin _ a b => legal a /\ legal b
  end.
(** Where the compiler keeps to it. *)
Fixpoint clean (e : source) : Prop :=
  match e with
  | SRange a b => const_elt a && const_elt b = true -> val a < 32 /\ val b < 32
  | SNeg a => clean a /\ (is_const a = true -> S <= bits a)
  | SBin op a b => clean a /\ clean b /\
      (op = SMinus -> is_const b = true -> has b 31 = true -> existsb (has b) upper = false -> Z.max (bits a) (bits b) = 32 \/ is_const a = true)
  | _ => True
  end.
End Meaning.
