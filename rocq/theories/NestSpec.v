(** * Procedures nested in procedures: the source language and its meaning

    A small Oberon-2 with everything that matters for reaching the variables of enclosing procedures:
    procedures declared inside procedures to any depth, recursion, value and VAR parameters, open arrays,
    records with a type tag, function procedures, and procedure variables.  Its meaning is lexical scoping:
    a procedure that is called runs in the environment of its declaration, so a variable of an enclosing
    procedure is the one of the activation it was called in.

    The meaning follows the Oberon-2 report, not the compiler: chapter 10 (procedure declarations, local
    names), 10.1 (formal parameters) and 8.1 (operands).  Left open by the report and fixed here to left-to-right:
    the order in which operands and parameters are evaluated. *)
From Verif Require Import Base.
Local Open Scope Z_scope.

(** ** Programs *)

(** Shape of a variable: a scalar (number, pointer, procedure value), an array with fixed dimensions, an open
    array with a number of dimensions (parameters only), a record of a static type (its contents are one scalar). *)
Inductive kind := KScal | KFix (dims : list nat) | KOpen (d : nat) | KRec (t : nat).

(** A declared variable or parameter; [d_ref] for a VAR parameter. *)
Record decl := mkDecl { d_ref : bool; d_kind : kind }.

(** A name after resolution: the [i]th variable of the module, or of procedure [p] (parameters first). *)
Inductive ref := RGlob (i : nat) | RLoc (p i : nat).

Inductive expr :=
| EInt (z : Z)
| EProc (q : nat)                                        (* a procedure used as a value *)
| ERd (d : desig)                                        (* value of a variable *)
| ELen (r : ref) (k : nat)                               (* LEN(a, k) *)
| ETyp (r : ref)                                         (* dynamic type of a record variable *)
| EBin (f : Z -> Z -> Z) (a b : expr)                    (* an operator; see C39-C41 for arithmetic *)
| ECall (q : nat) (l : list arg)                         (* function call *)
| ECallV (r : ref) (sig : list decl) (l : list arg)      (* call of the value of a procedure variable *)
with desig :=
| DVar (r : ref)                                         (* x, or the contents of a record *)
| DElem (r : ref) (l : list expr)                        (* a[i, j] *)
| DGuard (r : ref) (t : nat)                             (* r(T), contents of a record seen as type t *)
with arg :=
| AVal (e : expr)                                        (* for a scalar value parameter *)
| ARef (d : desig)                                       (* for a scalar VAR parameter *)
| AWhole (r : ref).                                      (* an array or record variable *)

Inductive stat :=
| SAss (d : desig) (e : expr)
| SCall (q : nat) (l : list arg)
| SCallV (r : ref) (sig : list decl) (l : list arg)
| SIf (e : expr) (a b : list stat)
| SWhile (e : expr) (a : list stat)
| SRet (o : option expr).

Record proc := mkProc {
  p_parent : option nat;      (* the procedure it is declared in; None at module level *)
  p_fun : bool;               (* a function procedure *)
  p_params : list decl;
  p_locals : list decl;
  p_body : list stat }.

Record prog := mkProg { procs : list proc; globals : list decl }.

Definition vars (pr : proc) : list decl := p_params pr ++ p_locals pr.

(** ** Values and storage *)

Inductive val := VInt (z : Z) | VProc (q : nat).

(** Storage: blocks of cells; a cell without value has not been assigned yet.  The blocks of an activation
    disappear when it ends, and their numbers are used again. *)
Definition mem := list (list (option val)).
Definition addr := (nat * nat)%type.

(** Use of storage that does not exist (any more). *)
Definition dangling : Z := -1000.

Definition rdc (m : mem) (a : addr) : res (option val) :=
  match nth_error m (fst a) with
  | Some blk => match nth_error blk (snd a) with Some c => Ok c | None => Trap dangling end
  | None => Trap dangling
  end.

Definition rd (m : mem) (a : addr) : res val :=
  let* c := rdc m a in match c with Some v => Ok v | None => UB end.

Fixpoint upd {A} (l : list A) (i : nat) (x : A) : list A :=
  match l, i with
  | [], _ => []
  | _ :: t, O => x :: t
  | h :: t, S i' => h :: upd t i' x
  end.

Definition wr (m : mem) (a : addr) (v : val) : res mem :=
  match nth_error m (fst a) with
  | Some blk => if (snd a <? length blk)%nat then Ok (upd m (fst a) (upd blk (snd a) (Some v))) else Trap dangling
  | None => Trap dangling
  end.

Definition blk (m : mem) (b : nat) : res (list (option val)) :=
  match nth_error m b with Some l => Ok l | None => Trap dangling end.

(** What a variable name stands for in an activation. *)
Inductive obj :=
| OScal (a : addr)
| OArr (b : nat) (lens : list nat)
| ORec (a : addr) (t : nat).

(** The activations a piece of code can see, innermost first, each with the procedure it belongs to. *)
Definition env := list (nat * list obj).

Fixpoint frame_of (rho : env) (p : nat) : option (list obj) :=
  match rho with
  | [] => None
  | (q, os) :: r => if (q =? p)%nat then Some os else frame_of r p
  end.

(** The environment of declaration of a procedure declared in [par], seen from [rho]. *)
Fixpoint inside (rho : env) (p : nat) : option env :=
  match rho with
  | [] => None
  | (q, os) :: r => if (q =? p)%nat then Some rho else inside r p
  end.

Definition decl_env (rho : env) (par : option nat) : option env :=
  match par with None => Some [] | Some p => inside rho p end.

Definition lookup (glob : list obj) (rho : env) (r : ref) : res obj :=
  match r with
  | RGlob i => match nth_error glob i with Some o => Ok o | None => UB end
  | RLoc p i => match frame_of rho p with
                | Some os => match nth_error os i with Some o => Ok o | None => UB end
                | None => UB
                end
  end.

(** Position of an element, row by row; a bad index stops the program with code -2. *)
Fixpoint offset (acc : nat) (lens : list nat) (ix : list Z) : res nat :=
  match lens, ix with
  | [], [] => Ok acc
  | n :: ls, i :: is =>
    if (0 <=? i) && (i <? Z.of_nat n) then offset (acc * n + Z.to_nat i)%nat ls is else Trap (-2)
  | _, _ => UB
  end.

(** What is handed over for one parameter. *)
Inductive pass :=
| PVal (v : val)
| PRef (a : addr)
| PArr (b : nat) (lens : list nat)
| PRecV (c : option val)
| PRec (a : addr) (t : nat).

Definition prod (l : list nat) : nat := fold_right Nat.mul 1%nat l.

(** Local variables get new storage. *)
Definition new_local (m : mem) (d : decl) : mem * obj :=
  match d_kind d with
  | KScal => (m ++ [[None]], OScal (length m, 0%nat))
  | KFix dims => (m ++ [repeat None (prod dims)], OArr (length m) dims)
  | KOpen _ => (m ++ [[]], OArr (length m) [])     (* not a local variable *)
  | KRec t => (m ++ [[None]], ORec (length m, 0%nat) t)
  end.

Fixpoint new_locals (m : mem) (ds : list decl) : mem * list obj :=
  match ds with
  | [] => (m, [])
  | d :: r => let (m1, o) := new_local m d in let (m2, os) := new_locals m1 r in (m2, o :: os)
  end.

(** A value parameter is a new variable holding a copy; a VAR parameter is the actual variable itself. *)
Definition bind_param (m : mem) (d : decl) (x : pass) : res (mem * obj) :=
  match d_ref d, d_kind d, x with
  | false, KScal, PVal v => Ok (m ++ [[Some v]], OScal (length m, 0%nat))
  | true, KScal, PRef a => Ok (m, OScal a)
  | false, (KFix _ | KOpen _), PArr b lens => let* l := blk m b in Ok (m ++ [l], OArr (length m) lens)
  | true, (KFix _ | KOpen _), PArr b lens => Ok (m, OArr b lens)
  | false, KRec t, PRecV c => Ok (m ++ [[c]], ORec (length m, 0%nat) t)
  | true, KRec _, PRec a t => Ok (m, ORec a t)
  | _, _, _ => UB
  end.

Fixpoint bind_params (m : mem) (ds : list decl) (xs : list pass) : res (mem * list obj) :=
  match ds, xs with
  | [], [] => Ok (m, [])
  | d :: dr, x :: xr =>
    let* (m1, o) := bind_param m d x in
    let* (m2, os) := bind_params m1 dr xr in
    Ok (m2, o :: os)
  | _, _ => UB
  end.

Definition kind_eqb (a b : kind) : bool :=
  match a, b with
  | KScal, KScal => true
  | KFix x, KFix y => if list_eq_dec Nat.eq_dec x y then true else false
  | KOpen x, KOpen y => (x =? y)%nat
  | KRec x, KRec y => (x =? y)%nat
  | _, _ => false
  end.
Definition decl_eqb (a b : decl) : bool := Bool.eqb (d_ref a) (d_ref b) && kind_eqb (d_kind a) (d_kind b).
Fixpoint sig_eqb (a b : list decl) : bool :=
  match a, b with
  | [], [] => true
  | x :: a', y :: b' => decl_eqb x y && sig_eqb a' b'
  | _, _ => false
  end.

(** ** Execution *)
Section Run.
Variable P : prog.
Variable glob : list obj.

(** All functions take the number of steps they may make. *)
Fixpoint eval (n : nat) (rho : env) (m : mem) (e : expr) {struct n} : res (mem * val) :=
  match n with O => Fuel | S n =>
    match e with
    | EInt z => Ok (m, VInt z)
    | EProc q => Ok (m, VProc q)
    | ERd d => let* (m1, a) := locate n rho m d in let* v := rd m1 a in Ok (m1, v)
    | ELen r k =>
      let* o := lookup glob rho r in
      match o with
      | OArr _ lens => match nth_error lens k with Some l => Ok (m, VInt (Z.of_nat l)) | None => UB end
      | _ => UB
      end
    | ETyp r =>
      let* o := lookup glob rho r in match o with ORec _ t => Ok (m, VInt (Z.of_nat t)) | _ => UB end
    | EBin f a b =>
      let* (m1, x) := eval n rho m a in
      let* (m2, y) := eval n rho m1 b in
      match x, y with VInt x, VInt y => Ok (m2, VInt (f x y)) | _, _ => UB end
    | ECall q l =>
      match nth_error (procs P) q with
      | None => UB
      | Some pr =>
        let* (m1, xs) := evargs n rho m (p_params pr) l in
        let* (m2, o) := invoke n rho m1 q xs in
        match o with Some v => Ok (m2, v) | None => UB end
      end
    | ECallV r sig l =>
      let* (m1, o) := call_value n rho m r sig l in
      match o with Some v => Ok (m1, v) | None => UB end
    end
  end
with locate (n : nat) (rho : env) (m : mem) (d : desig) {struct n} : res (mem * addr) :=
  match n with O => Fuel | S n =>
    match d with
    | DVar r =>
      let* o := lookup glob rho r in match o with OScal a => Ok (m, a) | ORec a _ => Ok (m, a) | _ => UB end
    | DElem r l =>
      let* o := lookup glob rho r in
      match o with
      | OArr b lens => let* (m1, ix) := evals n rho m l in let* k := offset 0 lens ix in Ok (m1, (b, k))
      | _ => UB
      end
    | DGuard r t =>
      let* o := lookup glob rho r in
      match o with ORec a t1 => if (t1 =? t)%nat then Ok (m, a) else Trap (-5) | _ => UB end
    end
  end
with evals (n : nat) (rho : env) (m : mem) (l : list expr) {struct n} : res (mem * list Z) :=
  match n with O => Fuel | S n =>
    match l with
    | [] => Ok (m, [])
    | e :: r =>
      let* (m1, v) := eval n rho m e in
      let* (m2, zs) := evals n rho m1 r in
      match v with VInt z => Ok (m2, z :: zs) | _ => UB end
    end
  end
with evargs (n : nat) (rho : env) (m : mem) (ds : list decl) (l : list arg) {struct n} : res (mem * list pass) :=
  match n with O => Fuel | S n =>
    match ds, l with
    | [], [] => Ok (m, [])
    | d :: dr, a :: r =>
      let* (m1, x) := evarg n rho m d a in
      let* (m2, xs) := evargs n rho m1 dr r in
      Ok (m2, x :: xs)
    | _, _ => UB
    end
  end
with evarg (n : nat) (rho : env) (m : mem) (d : decl) (a : arg) {struct n} : res (mem * pass) :=
  match n with O => Fuel | S n =>
    match a with
    | AVal e => let* (m1, v) := eval n rho m e in Ok (m1, PVal v)
    | ARef x => let* (m1, p) := locate n rho m x in Ok (m1, PRef p)
    | AWhole r =>
      let* o := lookup glob rho r in
      match o with
      | OArr b lens => Ok (m, PArr b lens)
      | ORec p t => if d_ref d then Ok (m, PRec p t) else let* c := rdc m p in Ok (m, PRecV c)
      | OScal _ => UB
      end
    end
  end
with call_value (n : nat) (rho : env) (m : mem) (r : ref) (sig : list decl) (l : list arg) {struct n}
    : res (mem * option val) :=
  match n with O => Fuel | S n =>
    let* (m1, a) := locate n rho m (DVar r) in
    let* v := rd m1 a in
    match v with
    | VInt _ => UB
    | VProc q =>
      match nth_error (procs P) q with
      | None => UB
      | Some pr =>
        if sig_eqb sig (p_params pr) then
          let* (m2, xs) := evargs n rho m1 sig l in
          match p_parent pr with
          | None => invoke n rho m2 q xs
          | Some _ => UB            (* a local procedure has no meaning outside its scope *)
          end
        else UB
      end
    end
  end
with invoke (n : nat) (rho : env) (m : mem) (q : nat) (xs : list pass) {struct n} : res (mem * option val) :=
  match n with O => Fuel | S n =>
    match nth_error (procs P) q with
    | None => UB
    | Some pr =>
      match decl_env rho (p_parent pr) with
      | None => UB
      | Some rho0 =>
        let* (m1, os) := bind_params m (p_params pr) xs in
        let (m2, ls) := new_locals m1 (p_locals pr) in
        let* (m3, o) := execs n ((q, os ++ ls) :: rho0) m2 (p_body pr) in
        match o with
        | Some v => Ok (firstn (length m) m3, v)
        | None => if p_fun pr then Trap (-3) else Ok (firstn (length m) m3, None)
        end
      end
    end
  end
with exec (n : nat) (rho : env) (m : mem) (s : stat) {struct n} : res (mem * option (option val)) :=
  match n with O => Fuel | S n =>
    match s with
    | SAss d e =>
      let* (m1, a) := locate n rho m d in
      let* (m2, v) := eval n rho m1 e in
      let* m3 := wr m2 a v in Ok (m3, None)
    | SCall q l =>
      match nth_error (procs P) q with
      | None => UB
      | Some pr =>
        let* (m1, xs) := evargs n rho m (p_params pr) l in
        let* (m2, _) := invoke n rho m1 q xs in Ok (m2, None)
      end
    | SCallV r sig l => let* (m1, _) := call_value n rho m r sig l in Ok (m1, None)
    | SIf e a b =>
      let* (m1, v) := eval n rho m e in
      match v with
      | VInt z => execs n rho m1 (if z =? 0 then b else a)
      | VProc _ => UB
      end
    | SWhile e a =>
      let* (m1, v) := eval n rho m e in
      match v with
      | VInt z =>
        if z =? 0 then Ok (m1, None)
        else let* (m2, o) := execs n rho m1 a in
             match o with None => exec n rho m2 s | Some _ => Ok (m2, o) end
      | VProc _ => UB
      end
    | SRet None => Ok (m, Some None)
    | SRet (Some e) => let* (m1, v) := eval n rho m e in Ok (m1, Some (Some v))
    end
  end
with execs (n : nat) (rho : env) (m : mem) (l : list stat) {struct n} : res (mem * option (option val)) :=
  match n with O => Fuel | S n =>
    match l with
    | [] => Ok (m, None)
    | s :: r =>
      let* (m1, o) := exec n rho m s in
      match o with None => execs n rho m1 r | Some _ => Ok (m1, o) end
    end
  end.
End Run.

(** Running a program: the module's variables are created and a parameterless procedure is called. *)
Definition run (P : prog) (n main : nat) : res (mem * option val) :=
  let (m, glob) := new_locals [] (globals P) in
  invoke P glob n [] m main [].

(** ** What the compiler accepts

    Names are visible where they are used, variables are used according to their declaration, and only
    procedures of the module level are used as values (Oberon-2 report, 6.5). *)
Section Accept.
Variable P : prog.

Definition parent (p : nat) : option nat := match nth_error (procs P) p with Some pr => p_parent pr | None => None end.

(** [anc n p q]: [q] is [p] or one of the procedures around it, at most [n] steps out. *)
Fixpoint anc (n p q : nat) : bool :=
  (p =? q)%nat || match n with O => false | S n' => match parent p with Some r => anc n' r q | None => false end end.

Definition sees (p q : nat) : bool := anc (length (procs P)) p q.

Definition decl_of (r : ref) : option decl :=
  match r with
  | RGlob i => nth_error (globals P) i
  | RLoc p i => match nth_error (procs P) p with Some pr => nth_error (vars pr) i | None => None end
  end.

Definition visible (p : nat) (r : ref) : bool := match r with RGlob _ => true | RLoc q _ => sees p q end.

Definition callable (p q : nat) : bool :=
  match nth_error (procs P) q with
  | None => false
  | Some pr => match p_parent pr with None => true | Some r => sees p r end
  end.

Definition dims_of (k : kind) : option nat :=
  match k with KFix ds => Some (length ds) | KOpen d => Some d | _ => None end.

Definition has (p : nat) (r : ref) (f : decl -> bool) : bool :=
  visible p r && match decl_of r with Some d => f d | None => false end.

Definition whole_ok (formal actual : kind) : bool :=
  match formal, actual with
  | KFix a, KFix b => kind_eqb formal actual
  | KOpen d, (KFix _ | KOpen _) => match dims_of actual with Some k => (k =? d)%nat | None => false end
  | KRec _, KRec _ => true
  | _, _ => false
  end.

(** In the body of procedure [p]. *)
Fixpoint ok_expr (p : nat) (e : expr) : bool :=
  match e with
  | EInt _ => true
  | EProc q => match nth_error (procs P) q with Some pr => match p_parent pr with None => true | _ => false end
                                              | None => false end
  | ERd d => ok_desig p d
  | ELen r k => has p r (fun d => match dims_of (d_kind d) with Some n => (k <? n)%nat | None => false end)
  | ETyp r => has p r (fun d => match d_kind d with KRec _ => true | _ => false end)
  | EBin _ a b => ok_expr p a && ok_expr p b
  | ECall q l => callable p q && match nth_error (procs P) q with Some pr =>
      (fix go (ds : list decl) (l : list arg) {struct l} : bool :=
         match ds, l with [], [] => true | d :: dr, a :: r => ok_arg p d a && go dr r | _, _ => false end)
        (p_params pr) l | None => false end
  | ECallV r sig l => has p r (fun d => kind_eqb (d_kind d) KScal) &&
      (fix go (ds : list decl) (l : list arg) {struct l} : bool :=
         match ds, l with [], [] => true | d :: dr, a :: r => ok_arg p d a && go dr r | _, _ => false end) sig l
  end
with ok_desig (p : nat) (d : desig) : bool :=
  match d with
  | DVar r => has p r (fun d => match d_kind d with KScal | KRec _ => true | _ => false end)
  | DElem r l => has p r (fun d => match dims_of (d_kind d) with Some n => (n =? length l)%nat | None => false end)
                 && (fix go (l : list expr) : bool := match l with [] => true | e :: r => ok_expr p e && go r end) l
  | DGuard r _ => has p r (fun d => d_ref d && match d_kind d with KRec _ => true | _ => false end)
  end
with ok_arg (p : nat) (d : decl) (a : arg) : bool :=
  match a with
  | AVal e => negb (d_ref d) && kind_eqb (d_kind d) KScal && ok_expr p e
  | ARef x => d_ref d && kind_eqb (d_kind d) KScal && ok_desig p x
  | AWhole r => has p r (fun x => whole_ok (d_kind d) (d_kind x))
  end.

Fixpoint ok_args (p : nat) (ds : list decl) (l : list arg) : bool :=
  match ds, l with [], [] => true | d :: dr, a :: r => ok_arg p d a && ok_args p dr r | _, _ => false end.

Fixpoint ok_stat (p : nat) (s : stat) : bool :=
  match s with
  | SAss d e => ok_desig p d && ok_expr p e
  | SCall q l => callable p q &&
      match nth_error (procs P) q with Some pr => ok_args p (p_params pr) l | None => false end
  | SCallV r sig l => has p r (fun d => kind_eqb (d_kind d) KScal) && ok_args p sig l
  | SIf e a b => ok_expr p e && forallb (ok_stat p) a && forallb (ok_stat p) b
  | SWhile e a => ok_expr p e && forallb (ok_stat p) a
  | SRet o => match o, (match nth_error (procs P) p with Some pr => p_fun pr | None => false end) with
              | None, false => true | Some e, true => ok_expr p e | _, _ => false end
  end.

Definition ok_local (d : decl) : bool := negb (d_ref d) && match d_kind d with KOpen _ => false | _ => true end.

Definition ok_proc (p : nat) (pr : proc) : bool :=
  match p_parent pr with None => true | Some q => (q <? p)%nat end &&
  forallb ok_local (p_locals pr) && forallb (ok_stat p) (p_body pr).

Fixpoint ok_procs (p : nat) (l : list proc) : bool :=
  match l with [] => true | pr :: r => ok_proc p pr && ok_procs (S p) r end.

Definition accepted : bool := forallb ok_local (globals P) && ok_procs 0 (procs P).
End Accept.

(** ** Uses that a restriction talks about

    [uses_* f g]: every variable used satisfies [f], and every record a type guard is applied to satisfies [g]. *)
Section Uses.
Variables f g : ref -> bool.

Fixpoint uses_expr (e : expr) : bool :=
  match e with
  | EInt _ | EProc _ => true
  | ERd d => uses_desig d
  | ELen r _ | ETyp r => f r
  | EBin _ a b => uses_expr a && uses_expr b
  | ECall _ l => forallb uses_arg l
  | ECallV r _ l => f r && forallb uses_arg l
  end
with uses_desig (d : desig) : bool :=
  match d with
  | DVar r => f r
  | DGuard r _ => f r && g r
  | DElem r l => f r && forallb uses_expr l
  end
with uses_arg (a : arg) : bool :=
  match a with
  | AVal e => uses_expr e
  | ARef d => uses_desig d
  | AWhole r => f r
  end.

Fixpoint uses_stat (s : stat) : bool :=
  match s with
  | SAss d e => uses_desig d && uses_expr e
  | SCall _ l => forallb uses_arg l
  | SCallV r _ l => f r && forallb uses_arg l
  | SIf e a b => uses_expr e && forallb uses_stat a && forallb uses_stat b
  | SWhile e a => uses_expr e && forallb uses_stat a
  | SRet o => match o with Some e => uses_expr e | None => true end
  end.
End Uses.

(** A variable used in the body of procedure [p] is one of its own or of the module, or it is neither a VAR
    parameter of fixed array type nor an open array with several dimensions. *)
Definition simple_use (P : prog) (p : nat) (r : ref) : bool :=
  match r with
  | RGlob _ => true
  | RLoc q _ =>
    (q =? p)%nat ||
    match decl_of P r with
    | Some d => match d_kind d with KFix _ => negb (d_ref d) | KOpen n => (n <=? 1)%nat | _ => true end
    | None => false
    end
  end.

Definition own_var (p : nat) (r : ref) : bool := match r with RGlob _ => false | RLoc q _ => (q =? p)%nat end.

(** No procedure uses a fixed-size VAR array or a many-dimensional open array of an enclosing procedure, and no
    procedure applies a type guard to a record parameter of an enclosing one. *)
Fixpoint simple_procs (P : prog) (p : nat) (l : list proc) : bool :=
  match l with
  | [] => true
  | pr :: r => forallb (uses_stat (simple_use P p) (own_var p)) (p_body pr) && simple_procs P (S p) r
  end.
Definition simple (P : prog) : bool := simple_procs P 0 (procs P).
