(** Integer and character expressions as written in a program: their types, values and where they are defined. *)
From Verif Require Import Base.

(** Integer types by their size in bytes, 1, 2, 4 or 8, and CHAR. *)
Inductive ty := TInt (s : Z) | TChar.
Inductive binop := Add | Sub | Mul | Div | Mod.
Inductive rel := Eq | Ne | Lt | Le | Gt | Ge.
(** Literals, variables (or calls of functions, [call]) of a type, and the predeclared functions and operators. *)
Inductive source :=
| SInt (v : Z)
| SChar (c : Z)
| SVar (i : nat) (t : ty) (call : bool)
| SNeg (a : source) | SAbs (a : source)
| SOrd (a : source) | SChr (a : source) | SCap (a : source)
| SShort (a : source) | SLong (a : source)
| SAsh (a n : source)
| SBin (op : binop) (a b : source).

(** v is a value of the type. *)
Definition range (t : ty) (v : Z) : Prop := match t with TInt s => - 2 ^ (8 * s - 1) <= v < 2 ^ (8 * s - 1) | TChar => 0 <= v < 256 end.
Definition rangeb (s v : Z) : bool := (- 2 ^ (8 * s - 1) <=? v) && (v <? 2 ^ (8 * s - 1)).
Definition smallest (v : Z) : Z := if rangeb 1 v then 1 else if rangeb 2 v then 2 else if rangeb 4 v then 4 else 8.

Section Meaning.
(** Sizes of SHORTINT, INTEGER and LONGINT. *)
Variables ss si sl : Z.
(** The values of the variables and of the calls. *)
Variable env : nat -> Z.

Fixpoint value (e : source) : Z :=
  match e with
  | SInt v => v
  | SChar c => c
  | SVar i _ _ => env i
  | SNeg a => - value a
  | SAbs a => Z.abs (value a)
  | SOrd a | SChr a | SShort a | SLong a => value a
  | SCap a => if (97 <=? value a) && (value a <=? 122) then value a - 32 else value a
  | SAsh a n => if 0 <=? value n then value a * 2 ^ value n else value a / 2 ^ (- value n)
  | SBin Add a b => value a + value b
  | SBin Sub a b => value a - value b
  | SBin Mul a b => value a * value b
  | SBin Div a b => value a / value b
  | SBin Mod a b => value a mod value b
  end.

(** The value is known at compile time. *)
Fixpoint known (e : source) : bool :=
  match e with
  | SInt _ | SChar _ => true
  | SVar _ _ _ => false
  | SNeg a | SAbs a | SOrd a | SChr a | SCap a | SShort a | SLong a => known a
  | SAsh a n => known a && known n
  | SBin Mul a b => (known a && known b) || (known a && (value a =? 0)) || (known b && (value b =? 0))
  | SBin _ a b => known a && known b
  end.
Fixpoint calls (e : source) : bool :=
  match e with
  | SInt _ | SChar _ => false
  | SVar _ _ call => call
  | SNeg a | SAbs a | SOrd a | SChr a | SCap a | SShort a | SLong a => calls a
  | SAsh a b | SBin _ a b => calls a || calls b
  end.

(** The next longer and the next shorter of the types SHORTINT, INTEGER, LONGINT and the types of 8 and 1 bytes. *)
Definition longer (s : Z) : Z := if s <? ss then ss else if s <? si then si else if s <? sl then sl else 8.
Definition shorter (s : Z) : Z := if sl <? s then sl else if si <? s then si else if ss <? s then ss else 1.
(** The type; [None] if the language has none.  Literals and results computed from literals by -, ABS and the operators have the smallest type that holds them; ORD
    yields INTEGER, LONG of a character and ASH of a shorter number LONGINT; an operation is done in the larger type. *)
Fixpoint type_of (e : source) : option ty :=
  match e with
  | SInt v => Some (TInt (smallest v))
  | SChar _ => Some TChar
  | SVar _ t _ => Some t
  | SNeg a | SAbs a => match type_of a with Some (TInt s) => Some (TInt (if known a then smallest (value e) else s)) | _ => None end
  | SOrd a => match type_of a with Some TChar => Some (TInt si) | _ => None end
  | SChr a => match type_of a with Some (TInt _) => Some TChar | _ => None end
  | SCap a => match type_of a with Some TChar => Some TChar | _ => None end
  | SShort a => match type_of a with Some (TInt s) => Some (TInt (shorter s)) | _ => None end
  | SLong a => match type_of a with Some (TInt s) => Some (TInt (longer s)) | Some TChar => Some (TInt sl) | None => None end
  | SAsh a n => match type_of a, type_of n with Some (TInt s), Some (TInt _) => Some (TInt (Z.max s sl)) | _, _ => None end
  | SBin _ a b =>
      match type_of a, type_of b with
      | Some (TInt s), Some (TInt s') => Some (TInt (if known a && known b then smallest (value e) else Z.max s s'))
      | _, _ => None
      end
  end.
Definition int_size (s : Z) : Prop := s = 1 \/ s = 2 \/ s = 4 \/ s = 8.
Definition legal_type (t : ty) : Prop := match t with TInt s => int_size s | TChar => True end.

(** No part of the expression overflows its type, divides by zero or is otherwise undefined: CAP is for letters, shift counts are less than 64. *)
Definition fits (e : source) : Prop := forall t, type_of e = Some t -> range t (value e).
Definition letter (c : Z) : Prop := 97 <= c <= 122 \/ 65 <= c <= 90.
Fixpoint defined (e : source) : Prop :=
  fits e /\
  match e with
  | SInt v => 0 <= v < 2 ^ 63
  | SChar c => True
  | SVar i t _ => legal_type t
  | SNeg a | SAbs a | SOrd a | SChr a | SShort a | SLong a => defined a
  | SCap a => defined a /\ letter (value a)
  | SAsh a n => defined a /\ defined n /\ -63 <= value n <= 63
  | SBin (Div | Mod) a b => defined a /\ defined b /\ value b <> 0
  | SBin _ a b => defined a /\ defined b
  end.

(** Where the compiler keeps to it: ABS of an 8-byte operand with a call is small; products of constants do not have factors of opposite sign; the
    intermediate results of DIV and MOD with 64-bit operands do not overflow; constants in ASH are less than 2^63 in magnitude and shifted by at most 62. *)
Definition limit : Z := 2 ^ 63 - 1.
Fixpoint clean (e : source) : Prop :=
  match e with
  | SInt _ | SChar _ | SVar _ _ _ => True
  | SAbs a => clean a /\ (type_of a = Some (TInt 8) -> calls a = true -> Z.abs (value a) < 2 ^ 31)
  | SNeg a | SOrd a | SChr a | SCap a | SShort a | SLong a => clean a
  | SAsh a n => clean a /\ clean n /\ (known a = true -> known n = true -> Z.abs (value n) <= 62 /\ Z.abs (value a) <= limit /\ Z.abs (value e) <= limit)
  | SBin op a b => clean a /\ clean b /\
      match op with
      | Mul => known a = true -> known b = true -> 0 <= value a /\ 0 <= value b \/ value a <= 0 /\ value b <= 0
      | Div => Z.abs (value a) <= limit /\ Z.abs (value b) <= limit /\ (Z.abs (value a) + Z.abs (value b) <= limit \/ (value a < 0 <-> value b < 0))
      | Mod => Z.abs (value a) <= limit /\ Z.abs (value b) <= limit
      | _ => True
      end
  end.

Definition related (r : rel) (x y : Z) : Prop :=
  match r with Eq => x = y | Ne => x <> y | Lt => x < y | Le => x <= y | Gt => x > y | Ge => x >= y end.
End Meaning.

(** The three size models (OPM.Mod 330-335). *)
Definition model (ss si sl : Z) : Prop := (ss = 1 /\ si = 2 /\ sl = 4) \/ (ss = 2 /\ si = 4 /\ sl = 8) \/ (ss = 1 /\ si = 4 /\ sl = 8).
