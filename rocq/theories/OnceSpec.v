(** Expressions with function calls: what is executed, in which order, and with what result. *)
From Verif Require Import Base.

(** Relations, unary and binary operators.  [Short]: SHORT to s bits; [SetOf], [Lsh], [Rot], [In], [Upto]: on words of s bits. *)
Inductive rel := Eq | Ne | Lt | Le | Gt | Ge.
Inductive unop := Neg | Abs | Cap | Odd | Not | Short (s : Z) | Chr | SetOf (s : Z).
Inductive binop := Add | Sub | Mul | Div | Mod | Ash | Lsh (s : Z) | Rot (s : Z) | In (s : Z) | Upto (s : Z) | Rel (r : rel).

(** Expressions: numbers, values of variables, calls, calls of the type-bound procedure number m of what a pointer designates, operators, conditional & and OR, the
    type test p IS T, the guard p(T), LEN(p^).  Designators: variables, fields, elements of an array of length n, what a pointer designates, elements of an open array a
    pointer designates.  Arguments: by value; by reference; a record designated by a pointer, by reference; an open array designated by a pointer. *)
Inductive expr :=
| EInt (v : Z)
| ELoad (d : desig)
| ECall (f : Z) (a : args)
| ESend (m : Z) (e : expr) (a : args)
| EUn (o : unop) (e : expr)
| EBin (o : binop) (e1 e2 : expr)
| EAnd (e1 e2 : expr)
| EOr (e1 e2 : expr)
| EIs (e : expr) (t : Z)
| EGuard (e : expr) (t : Z)
| ELen (e : expr)
with desig :=
| DVar (i : nat)
| DField (d : desig) (k : Z)
| DIndex (d : desig) (n : Z) (e : expr)
| DDeref (e : expr)
| DElem (e i : expr)
with args :=
| ANil
| AVal (e : expr) (a : args)
| AVar (d : desig) (a : args)
| ARec (e : expr) (a : args)
| AOpen (e : expr) (a : args).

(** Places: a variable or an allocated object, and the fields and elements selected. *)
Inductive base := Global (i : nat) | Object (a : Z).
Definition loc : Type := base * list Z.
Inductive val := Num (v : Z) | Ref (l : loc).
(** What has been executed so far: the procedures called and their arguments, the last first. *)
Inductive event := Called (f : Z) (vs : list val).
Definition history := list event.

(** Computations that call procedures. *)
Definition M A : Type := history -> res A * history.
Definition ret {A} (a : A) : M A := fun h => (Ok a, h).
Definition fail {A} (r : res A) : M A := fun h => (r, h).
Definition bnd {A B} (m : M A) (k : A -> M B) : M B :=
  fun h => match m h with (Ok a, h') => k a h' | (Trap c, h') => (Trap c, h') | (UB, h') => (UB, h') | (Fuel, h') => (Fuel, h') end.
Declare Scope m_scope.
Delimit Scope m_scope with m.
Notation "'do' x <- m ; k" := (bnd m (fun x => k)) (at level 100, x pattern, m at level 90, k at level 200, right associativity) : m_scope.
Open Scope m_scope.

Definition truth (b : bool) : Z := if b then 1 else 0.
Definition related (r : rel) (x y : Z) : bool :=
  match r with Eq => x =? y | Ne => negb (x =? y) | Lt => x <? y | Le => x <=? y | Gt => y <? x | Ge => y <=? x end.
Definition need {A} (b : bool) (a : A) : res A := if b then Ok a else UB.

(** There is a call in it. *)
Fixpoint calls (e : expr) : bool :=
  match e with
  | EInt _ => false
  | ELoad d => calls_d d
  | ECall _ _ | ESend _ _ _ => true
  | EUn _ e | EIs e _ | EGuard e _ | ELen e => calls e
  | EBin _ a b | EAnd a b | EOr a b => calls a || calls b
  end
with calls_d (d : desig) : bool :=
  match d with DVar _ => false | DField d _ => calls_d d | DIndex d _ e => calls_d d || calls e | DDeref e => calls e | DElem e i => calls e || calls i end.
Definition number (e : expr) : bool := match e with EInt _ => true | _ => false end.

(** The calls written; expressions without & and OR. *)
Fixpoint sites (e : expr) : nat :=
  match e with
  | EInt _ => 0
  | ELoad d => sites_d d
  | ECall _ a => S (sites_a a)
  | ESend _ e a => S (sites e + sites_a a)
  | EUn _ e | EIs e _ | EGuard e _ | ELen e => sites e
  | EBin _ a b | EAnd a b | EOr a b => sites a + sites b
  end
with sites_d (d : desig) : nat :=
  match d with DVar _ => 0 | DField d _ => sites_d d | DIndex d _ e => sites_d d + sites e | DDeref e => sites e | DElem e i => sites e + sites i end
with sites_a (a : args) : nat :=
  match a with ANil => 0 | AVal e a => sites e + sites_a a | AVar d a => sites_d d + sites_a a | ARec e a | AOpen e a => sites e + sites_a a end.
Fixpoint straight (e : expr) : bool :=
  match e with
  | EInt _ => true
  | ELoad d => straight_d d
  | ECall _ a => straight_a a
  | ESend _ e a => straight e && straight_a a
  | EUn _ e | EIs e _ | EGuard e _ | ELen e => straight e
  | EBin _ a b => straight a && straight b
  | EAnd _ _ | EOr _ _ => false
  end
with straight_d (d : desig) : bool :=
  match d with DVar _ => true | DField d _ => straight_d d | DIndex d _ e => straight_d d && straight e | DDeref e => straight e | DElem e i => straight e && straight i end
with straight_a (a : args) : bool :=
  match a with ANil => true | AVal e a => straight e && straight_a a | AVar d a => straight_d d && straight_a a | ARec e a | AOpen e a => straight e && straight_a a end.

Section Meaning.
(** Range, index and type checks are on. *)
Variables ranchk inxchk typchk : bool.
(** The result of a call and the contents of memory depend on everything executed before; an object keeps its type and length. *)
Variable result : history -> Z -> list val -> Z.
Variable mem : history -> loc -> Z.
Variable tag len : Z -> Z.
(** Type t is type t' or an extension of it; the procedure bound to a type with number m. *)
Variable extends : Z -> Z -> bool.
Variable method : Z -> Z -> Z.

(** Where the result is UB nothing is claimed: division by zero, shift counts outside the word, and (C05) negative numbers that should be caught by a check.  Values are
    unbounded; overflow is the subject of C72.  Words have at most 64 bits, SHORT yields at most 32; indices and lengths are less than 2^63. *)
Definition size_t (n : Z) : bool := (0 <=? n) && (n <? 2 ^ 63).
Definition word (s : Z) : bool := (0 <? s) && (s <=? 64).
Definition short (s x : Z) : res Z := if negb ((0 <? s) && (s <=? 32) && (- 2 ^ 63 <=? x) && (x <? 2 ^ 63)) then UB else if (- 2 ^ (s - 1) <=? x) && (x <? 2 ^ (s - 1)) then Ok x else if ranchk then Trap (-8) else UB.
Definition chr (x : Z) : res Z := if negb (size_t x) then UB else if x <? 256 then Ok x else if ranchk then Trap (-8) else UB.
Definition index (i n : Z) : res Z := if negb (size_t i && size_t n) then UB else if i <? n then Ok i else if inxchk then Trap (-2) else UB.
Definition ash (x n : Z) : Z := if 0 <=? n then x * 2 ^ n else x / 2 ^ (- n).
Definition lsh (s x n : Z) : Z := wrap_s s (if 0 <=? n then x * 2 ^ n else (wrap_u s x) / 2 ^ (- n)).
Definition rot (s x n : Z) : Z := let u := wrap_u s x in let k := n mod s in wrap_s s (Z.lor (Z.shiftl u k) (Z.shiftr u (s - k))).
Definition element (s x w : Z) : res Z := need (word s && (- 2 ^ 31 <=? x) && (x <? 2 ^ 31)) (truth ((0 <=? x) && (x <? s) && Z.testbit w x)).
Definition cap (c : Z) : Z := Z.land c 95.
Definition upto (s l h : Z) : Z := Z.land (Z.shiftl (-1) l) (Z.ones (h + 1)).
Definition unary (o : unop) (x : Z) : res Z :=
  match o with
  | Neg => Ok (- x)
  | Abs => Ok (Z.abs x)
  | Cap => Ok (cap x)
  | Odd => Ok (truth (Z.odd x))
  | Not => Ok (truth (x =? 0))
  | Short s => short s x
  | Chr => chr x
  | SetOf s => need (word s && (0 <=? x) && (x <? s)) (2 ^ x)
  end.
Definition binary (o : binop) (x y : Z) : res Z :=
  match o with
  | Add => Ok (x + y)
  | Sub => Ok (x - y)
  | Mul => Ok (x * y)
  | Div => need (negb (y =? 0)) (x / y)
  | Mod => need (negb (y =? 0)) (x mod y)
  | Ash => need ((-64 <? y) && (y <? 64)) (ash x y)
  | Lsh s => need (word s && (- s <? y) && (y <? s)) (lsh s x y)
  | Rot s => need (word s && (- s <? y) && (y <? s) && negb (y =? 0)) (rot s x y)
  | In s => element s x y
  | Upto s => need (word s && (0 <=? x) && (x <? s) && (0 <=? y) && (y <? s)) (upto s x y)
  | Rel r => Ok (truth (related r x y))
  end.
Definition object (p : Z) : res Z := need (negb (p =? 0)) p.

(** Every part is evaluated once, from left to right; & and OR evaluate their right operand only if needed. *)
Fixpoint eval (e : expr) : M Z :=
  match e with
  | EInt v => ret v
  | ELoad d => do l <- place d; fun h => (Ok (mem h l), h)
  | ECall f a => do vs <- arguments a; fun h => (Ok (result h f vs), Called f vs :: h)
  | ESend m e a =>
      do p <- eval e; do p <- fail (object p); do vs <- arguments a;
      fun h => let f := method (tag p) m in (Ok (result h f (Num p :: vs)), Called f (Num p :: vs) :: h)
  | EUn o e => do x <- eval e; fail (unary o x)
  | EBin o e1 e2 => do x <- eval e1; do y <- eval e2; fail (binary o x y)
  | EAnd e1 e2 => do x <- eval e1; if x =? 0 then ret 0 else do y <- eval e2; ret (truth (negb (y =? 0)))
  | EOr e1 e2 => do x <- eval e1; if x =? 0 then do y <- eval e2; ret (truth (negb (y =? 0))) else ret 1
  | EIs e t => do p <- eval e; do p <- fail (object p); ret (truth (extends (tag p) t))
  | EGuard e t => do p <- eval e; if typchk then do p <- fail (object p); if extends (tag p) t then ret p else fail (Trap (-5)) else ret p
  | ELen e => do p <- eval e; do p <- fail (object p); ret (len p)
  end
with place (d : desig) : M loc :=
  match d with
  | DVar i => ret (Global i, [])
  | DField d k => do l <- place d; ret (fst l, k :: snd l)
  | DIndex d n e => do l <- place d; do i <- eval e; do i <- fail (index i n); ret (fst l, i :: snd l)
  | DDeref e => do p <- eval e; do p <- fail (object p); ret (Object p, [])
  | DElem e i => do p <- eval e; do p <- fail (object p); do i <- eval i; do i <- fail (index i (len p)); ret (Object p, [i])
  end
with arguments (a : args) : M (list val) :=
  match a with
  | ANil => ret []
  | AVal e a => do v <- eval e; do vs <- arguments a; ret (Num v :: vs)
  | AVar d a => do l <- place d; do vs <- arguments a; ret (Ref l :: vs)
  | ARec e a => do p <- eval e; do p <- fail (object p); do vs <- arguments a; ret (Ref (Object p, []) :: Num (tag p) :: vs)
  | AOpen e a => do p <- eval e; do p <- fail (object p); do vs <- arguments a; ret (Ref (Object p, []) :: Num (len p) :: vs)
  end.


(** The value does not depend on what is executed in between; the evaluation calls nothing and fails no check. *)
Definition steady (e : expr) : Prop := forall h h', fst (eval e h) = fst (eval e h').
Definition plain (e : expr) : Prop := forall h, exists v, eval e h = (Ok v, h).
(** Where the compiler keeps to it.  There must be no call in: the element of an IN test, the operand of ROT, the count of LSH and ROT, the pointer of a guard and of an
    element of an open array when checks are on, the receiver of a type-bound procedure, and the pointer of a record or open array passed by reference.  The set of an IN
    test and the count of a shift must be plain.  The count of ASH and LSH and the pointer of an element must not change while the other operand is evaluated.  Numbers used
    as an index are inside the array (the compiler checks that), and open arrays have at least one element. *)
Fixpoint once (e : expr) : Prop :=
  match e with
  | EInt _ => True
  | ELoad d => once_d d
  | ECall _ a => once_a a
  | ESend _ e a => once e /\ once_a a /\ calls e = false
  | EUn _ e | EIs e _ | ELen e => once e
  | EGuard e _ => once e /\ (typchk = true -> calls e = false)
  | EBin o a b => once a /\ once b /\
      match o with
      | In _ => calls a = false /\ plain b
      | Ash => calls b = true \/ number b = true \/ (plain b /\ (calls a = false \/ steady b))
      | Lsh _ => number b = true \/ (plain b /\ (calls a = false \/ steady b))
      | Rot _ => calls a = false /\ (number b = true \/ plain b)
      | _ => True
      end
  | EAnd a b | EOr a b => once a /\ once b
  end
with once_d (d : desig) : Prop :=
  match d with
  | DVar _ => True
  | DField d _ => once_d d
  | DIndex d n e => once_d d /\ once e /\ match e with EInt k => 0 <= k < n | _ => True end
  | DDeref e => once e
  | DElem e i => once e /\ once i /\ (inxchk = true -> i <> EInt 0 -> calls e = false /\ (calls i = false \/ steady e))
  end
with once_a (a : args) : Prop :=
  match a with
  | ANil => True
  | AVal e a => once e /\ once_a a
  | AVar d a => once_d d /\ once_a a
  | ARec e a | AOpen e a => once e /\ once_a a /\ calls e = false
  end.
End Meaning.
