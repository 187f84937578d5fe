(** * Procedures nested in procedures: the generated C

    C has no nested functions.  The compiler turns every procedure into a C function of the module.  A procedure
    [P] that contains others gets a struct type with one pointer field per variable that inner procedures use,
    a static variable [P_s] pointing to the struct of the running activation, and in each activation a struct
    [_s] that is linked in on entry and taken out on return:

    <<
    static struct P { T *x; ...; struct P *lnk; } *P_s;        OPC.DefineInter   (OPC.Mod 939-954)
    _s.x = &x; ...; _s.lnk = P_s; P_s = &_s;                   OPC.EnterProc     (OPC.Mod 961-1058)
    P_s = _s.lnk;                                              OPC.ExitProc      (OPC.Mod 1060-1087)
    *P_s->x                                                    OPC.CompleteIdent (OPC.Mod 1089-1107)
    >>

    The model runs the generated C directly on the syntax tree of NestSpec.  Simplifications: storage is blocks of
    cells as in NestSpec (a C object is a block, and the blocks of a call are given back when the function
    returns); evaluation is left to right where C leaves the order open; records hold one scalar; WITH is left out;
    names of the structs are taken to be unique (OPV.Mod 119-121, Stamp). *)
From Verif Require Import Base NestSpec.
Local Open Scope Z_scope.

(** A C variable of a function, as the parameter and variable declarations make it (OPC.Mod 165-199 DeclareObj,
    676-702 AnsiParamList): an object of its own; a pointer for a VAR parameter; an array or pointer to the first
    element; pointer and lengths; pointer and type tag. *)
Inductive cvar :=
| CCell (b : nat)
| CPtr (a : addr)
| CFix (b : nat)
| COpen (b : nat) (lens : list nat)
| CRecP (a : addr) (t : nat).

(** A field of the scope struct; lengths of open arrays are separate fields, unset until assigned. *)
Inductive fld :=
| FAdr (a : addr)
| FFix (b : nat)
| FOpen (b : nat) (lens : list (option nat))
| FRec (a : addr) (t : nat).

(** struct P: the fields and the link (OPC.Mod 943-950). *)
Record scope := mkScope { s_fields : list (option fld); s_lnk : option nat }.

(** State of the C program: storage, the static pointers [P_s], and the structs [_s] of the running
    activations, outermost first. *)
Record cst := mkC { c_mem : mem; c_ptr : list (option nat); c_str : list scope }.

(** What an operand text denotes: an object of scalar or record type, or an array with its lengths. *)
Inductive cobj :=
| XAdr (a : addr)
| XArr (b : nat) (lens : list (option nat))
| XRec (a : addr) (t : nat).

Section C.
Variable P : prog.
Variable glob : list cvar.

(** mnolev of the variables of procedure [p] (OPP.Mod 663: INC(level); OpenScope(level, proc)), which is also
    OPM.level while its body is written (OPV.Mod 787). *)
Fixpoint level_n (n p : nat) : nat :=
  match n with
  | O => O
  | S n' => match parent P p with None => 1 | Some q => S (level_n n' q) end
  end.
Definition level (p : nat) : nat := level_n (S p) p.

(** OPP.Mod 37-55 qualident: an occurrence of a variable in a procedure of another level clears its leaf flag.
    The functions list the occurrences in a body. *)
Fixpoint refs_expr (e : expr) : list ref :=
  match e with
  | EInt _ | EProc _ => []
  | ERd d => refs_desig d
  | ELen r _ | ETyp r => [r]
  | EBin _ a b => refs_expr a ++ refs_expr b
  | ECall _ l => flat_map refs_arg l
  | ECallV r _ l => r :: flat_map refs_arg l
  end
with refs_desig (d : desig) : list ref :=
  match d with
  | DVar r | DGuard r _ => [r]
  | DElem r l => r :: flat_map refs_expr l
  end
with refs_arg (a : arg) : list ref :=
  match a with
  | AVal e => refs_expr e
  | ARef d => refs_desig d
  | AWhole r => [r]
  end.

Fixpoint refs_stat (s : stat) : list ref :=
  match s with
  | SAss d e => refs_desig d ++ refs_expr e
  | SCall _ l => flat_map refs_arg l
  | SCallV r _ l => r :: flat_map refs_arg l
  | SIf e a b => refs_expr e ++ flat_map refs_stat a ++ flat_map refs_stat b
  | SWhile e a => refs_expr e ++ flat_map refs_stat a
  | SRet o => match o with Some e => refs_expr e | None => [] end
  end.

Definition is_ref (p i : nat) (r : ref) : bool :=
  match r with RLoc q j => (q =? p)%nat && (j =? i)%nat | RGlob _ => false end.

Fixpoint used_deeper (p i q : nat) (l : list proc) : bool :=
  match l with
  | [] => false
  | pr :: r =>
    (negb (level p =? level q)%nat && existsb (is_ref p i) (flat_map refs_stat (p_body pr)))
    || used_deeper p i (S q) r
  end.

(** leaf of variable [i] of procedure [p] (OPT.Mod 479: TRUE at first). *)
Definition var_leaf (p i : nat) : bool := negb (used_deeper p i 0 (procs P)).

(** leaf of the scope of procedure [p]: no procedure is declared in it (OPV.Mod 119-123). *)
Definition scope_leaf (p : nat) : bool :=
  negb (existsb (fun pr => match p_parent pr with Some q => (q =? p)%nat | None => false end) (procs P)).

(** ** OPC.EnterProc *)

(** Lengths of an open array (OPC.Mod 1021-1031): [REPEAT _s.x__len<dim> = x__len<dim>; typ := typ.BaseTyp UNTIL],
    one round per dimension.  The loop does not advance [dim]. *)
Fixpoint len_loop (k dim : nat) (flds : list (option nat)) (lens : list nat) : list (option nat) :=
  match k with
  | O => flds
  | S k' => len_loop k' dim (upd flds dim (nth_error lens dim)) lens
  end.

(** Field for a parameter (OPC.Mod 1010-1037). *)
Definition param_field (d : decl) (x : cvar) : option fld :=
  match d_kind d, x with
  | KFix _, CFix b => Some (FFix b)                                                    (* (void pointer) x *)
  | KOpen n, COpen b lens => Some (FOpen b (len_loop n 0 (repeat None n) lens))        (* (void pointer) x; lengths *)
  | KRec _, CRecP a t => Some (FRec a t)                                               (* x; x__typ *)
  | _, CPtr a => Some (FAdr a)                                                         (* x *)
  | _, CCell b => Some (FAdr (b, 0%nat))                                               (* &x *)
  | _, _ => None
  end.

(** Field for a local variable (OPC.Mod 1040-1051). *)
Definition local_field (d : decl) (x : cvar) : option fld :=
  match d_kind d, x with
  | KFix _, CFix b => Some (FFix b)                                                    (* (void pointer) x *)
  | _, CCell b => Some (FAdr (b, 0%nat))                                               (* &x *)
  | _, _ => None
  end.

(** The loops over parameters and local variables; [i] is the number of the variable. *)
Fixpoint fields (f : decl -> cvar -> option fld) (p i : nat) (ds : list decl) (xs : list cvar) : list (option fld) :=
  match ds, xs with
  | d :: dr, x :: xr => (if var_leaf p i then None else f d x) :: fields f p (S i) dr xr
  | _, _ => []
  end.

Definition scope_fields (p : nat) (pr : proc) (ps ls : list cvar) : list (option fld) :=
  fields param_field p 0 (p_params pr) ps ++ fields local_field p (length (p_params pr)) (p_locals pr) ls.

(** Linking in (OPC.Mod 1053-1056); the new struct is the last one. *)
Definition link_scope (st : cst) (p : nat) (fs : list (option fld)) : cst :=
  mkC (c_mem st) (upd (c_ptr st) p (Some (length (c_str st))))
      (c_str st ++ [mkScope fs (match nth_error (c_ptr st) p with Some o => o | None => None end)]).

(** Taking out (OPC.Mod 1067-1072): [P_s = _s.lnk], with [_s] the struct number [own]. *)
Definition unlink (st : cst) (p own : nat) : cst :=
  if scope_leaf p then st
  else match nth_error (c_str st) own with
       | Some s => mkC (c_mem st) (upd (c_ptr st) p (s_lnk s)) (c_str st)
       | None => st
       end.

(** Parameters of the C function: what the caller hands over, then the copies of value arrays.  __DUPARR copies
    sizeof the array type, __DUP the product of the lengths (SYSTEM.h 163-164; OPC.Mod 974-1007). *)
Definition copy (m : mem) (b n : nat) : res (list (option val)) :=
  let* l := blk m b in if (n <=? length l)%nat then Ok (firstn n l) else UB.

Definition c_param (m : mem) (d : decl) (x : pass) : res (mem * cvar) :=
  match d_kind d, x with
  | KScal, PVal v => Ok (m ++ [[Some v]], CCell (length m))
  | KScal, PRef a => Ok (m, CPtr a)
  | KFix dims, PArr b _ =>
    if d_ref d then Ok (m, CFix b)
    else let* l := copy m b (prod dims) in Ok (m ++ [l], CFix (length m))
  | KOpen _, PArr b lens =>
    if d_ref d then Ok (m, COpen b lens)
    else let* l := copy m b (prod lens) in Ok (m ++ [l], COpen (length m) lens)
  | KRec _, PRecV c => Ok (m ++ [[c]], CCell (length m))
  | KRec _, PRec a t => Ok (m, CRecP a t)
  | _, _ => UB
  end.

Fixpoint c_params (m : mem) (ds : list decl) (xs : list pass) : res (mem * list cvar) :=
  match ds, xs with
  | [], [] => Ok (m, [])
  | d :: dr, x :: xr =>
    let* (m1, o) := c_param m d x in
    let* (m2, os) := c_params m1 dr xr in
    Ok (m2, o :: os)
  | _, _ => UB
  end.

(** Local variables of the C function (OPC.Mod 968, IdentList). *)
Definition c_local (m : mem) (d : decl) : mem * cvar :=
  match d_kind d with
  | KFix dims => (m ++ [repeat None (prod dims)], CFix (length m))
  | KOpen _ => (m ++ [[]], COpen (length m) [])
  | _ => (m ++ [[None]], CCell (length m))
  end.

Fixpoint c_locals (m : mem) (ds : list decl) : mem * list cvar :=
  match ds with
  | [] => (m, [])
  | d :: r => let (m1, o) := c_local m d in let (m2, os) := c_locals m1 r in (m2, o :: os)
  end.

(** ** OPC.CompleteIdent and OPV.design: the text of an operand and what it denotes *)

(** The variable itself is in scope of the C function (OPC.Mod 1104: Ident).  A VAR parameter that is no array is
    dereferenced (OPV.Mod 322); lengths of fixed arrays are constants (OPC.Mod 1226). *)
Definition direct (d : decl) (x : cvar) : res cobj :=
  match d_kind d, x with
  | KScal, CCell b => Ok (XAdr (b, 0%nat))
  | KScal, CPtr a => Ok (XAdr a)
  | KFix dims, CFix b => Ok (XArr b (map Some dims))
  | KOpen _, COpen b lens => Ok (XArr b (map Some lens))
  | KRec t, CCell b => Ok (XRec (b, 0%nat) t)         (* tag: T__typ, OPV.Mod 284 *)
  | KRec _, CRecP a t => Ok (XRec a t)                (* tag: x__typ, OPC.Mod 1117 *)
  | _, _ => UB
  end.

(** The variable of an enclosing procedure (OPC.Mod 1098-1102), through the field of the struct [P_s] points to.
    The field is a pointer to the variable; a star is written unless the variable is a VAR parameter, which
    design dereferences itself, or an open array, whose field points to the first element.  For a VAR parameter
    that is a fixed array neither writes a star (OPV.Mod 322): [P_s->a[i]] then is the [i]th array after the one
    pointed to, not an element of it, and has the wrong C type.  Type tag: OPC.Mod 1114. *)
Definition through (d : decl) (f : fld) : res cobj :=
  match d_kind d, f with
  | KScal, FAdr a => Ok (XAdr a)
  | KFix dims, FFix b => if d_ref d then UB else Ok (XArr b (map Some dims))
  | KOpen _, FOpen b lens => Ok (XArr b lens)
  | KRec t, FAdr a => Ok (XRec a t)
  | KRec _, FRec a t => Ok (XRec a t)
  | _, _ => UB
  end.

(** [cur], [fr]: the procedure being run and the variables of its C function.  A pointer [P_s] that is null or
    dangling, or a field never set, has no defined meaning. *)
Definition operand (cur : nat) (fr : list cvar) (st : cst) (r : ref) : res cobj :=
  match decl_of P r with
  | None => UB
  | Some d =>
    match r with
    | RGlob i => match nth_error glob i with Some x => direct d x | None => UB end
    | RLoc p i =>
      if (level p =? level cur)%nat then match nth_error fr i with Some x => direct d x | None => UB end
      else match nth_error (c_ptr st) p with
           | Some (Some k) =>
             match nth_error (c_str st) k with
             | Some s => match nth_error (s_fields s) i with Some (Some f) => through d f | _ => UB end
             | None => UB
             end
           | _ => UB
           end
    end
  end.

(** Is the operand of a type guard a variable of the running procedure?  If not, the text written is
    [P__curr->r] (OPV.Mod 365-366), a name declared nowhere. *)
Definition own_level (cur : nat) (r : ref) : bool :=
  match r with RGlob _ => (level cur =? 0)%nat | RLoc p _ => (level p =? level cur)%nat end.

Fixpoint all_set (l : list (option nat)) : res (list nat) :=
  match l with
  | [] => Ok []
  | o :: r => match o with Some n => let* t := all_set r in Ok (n :: t) | None => UB end
  end.

(** OPV.Mod 716-720: no RETURN among the statements of the body itself. *)
Definition implicit_return (l : list stat) : bool :=
  negb (existsb (fun s => match s with SRet _ => true | _ => false end) l).

(** OPC.Mod 956-959 *)
Definition needs_retval (p : nat) (pr : proc) : bool := p_fun pr && negb (scope_leaf p).

(** ** Running the C program; [own] is the struct [_s] of the activation (if the procedure has one) *)
Fixpoint c_eval (n cur : nat) (fr : list cvar) (own : nat) (st : cst) (e : expr) {struct n} : res (cst * val) :=
  match n with O => Fuel | S n =>
    match e with
    | EInt z => Ok (st, VInt z)
    | EProc q => Ok (st, VProc q)
    | ERd d => let* (st1, a) := c_locate n cur fr own st d in let* v := rd (c_mem st1) a in Ok (st1, v)
    | ELen r k =>
      let* o := operand cur fr st r in
      match o with
      | XArr _ lens => match nth_error lens k with Some (Some l) => Ok (st, VInt (Z.of_nat l)) | _ => UB end
      | _ => UB
      end
    | ETyp r =>
      let* o := operand cur fr st r in match o with XRec _ t => Ok (st, VInt (Z.of_nat t)) | _ => UB end
    | EBin f a b =>
      let* (st1, x) := c_eval n cur fr own st a in
      let* (st2, y) := c_eval n cur fr own st1 b in
      match x, y with VInt x, VInt y => Ok (st2, VInt (f x y)) | _, _ => UB end
    | ECall q l =>
      match nth_error (procs P) q with
      | None => UB
      | Some pr =>
        let* (st1, xs) := c_args n cur fr own st (p_params pr) l in
        let* (st2, o) := c_invoke n st1 q xs in
        match o with Some v => Ok (st2, v) | None => UB end
      end
    | ECallV r sig l =>
      let* (st1, o) := c_call_value n cur fr own st r sig l in
      match o with Some v => Ok (st1, v) | None => UB end
    end
  end
with c_locate (n cur : nat) (fr : list cvar) (own : nat) (st : cst) (d : desig) {struct n} : res (cst * addr) :=
  match n with O => Fuel | S n =>
    match d with
    | DVar r =>
      let* o := operand cur fr st r in match o with XAdr a => Ok (st, a) | XRec a _ => Ok (st, a) | _ => UB end
    | DElem r l =>                                   (* OPV.Mod 331-359, with index checks *)
      let* o := operand cur fr st r in
      match o with
      | XArr b lens =>
        let* (st1, ix) := c_evals n cur fr own st l in
        let* ls := all_set lens in
        let* k := offset 0 ls ix in Ok (st1, (b, k))
      | _ => UB
      end
    | DGuard r t =>                                  (* OPV.Mod 360-382, __GUARDR, SYSTEM.h *)
      if own_level cur r then
        let* o := operand cur fr st r in
        match o with XRec a t1 => if (t1 =? t)%nat then Ok (st, a) else Trap (-5) | _ => UB end
      else UB
    end
  end
with c_evals (n cur : nat) (fr : list cvar) (own : nat) (st : cst) (l : list expr) {struct n} : res (cst * list Z) :=
  match n with O => Fuel | S n =>
    match l with
    | [] => Ok (st, [])
    | e :: r =>
      let* (st1, v) := c_eval n cur fr own st e in
      let* (st2, zs) := c_evals n cur fr own st1 r in
      match v with VInt z => Ok (st2, z :: zs) | _ => UB end
    end
  end
(** OPV.Mod 406-462 ActualPar *)
with c_args (n cur : nat) (fr : list cvar) (own : nat) (st : cst) (ds : list decl) (l : list arg) {struct n}
    : res (cst * list pass) :=
  match n with O => Fuel | S n =>
    match ds, l with
    | [], [] => Ok (st, [])
    | d :: dr, a :: r =>
      let* (st1, x) := c_arg n cur fr own st d a in
      let* (st2, xs) := c_args n cur fr own st1 dr r in
      Ok (st2, x :: xs)
    | _, _ => UB
    end
  end
with c_arg (n cur : nat) (fr : list cvar) (own : nat) (st : cst) (d : decl) (a : arg) {struct n} : res (cst * pass) :=
  match n with O => Fuel | S n =>
    match a with
    | AVal e => let* (st1, v) := c_eval n cur fr own st e in Ok (st1, PVal v)
    | ARef x => let* (st1, p) := c_locate n cur fr own st x in Ok (st1, PRef p)         (* & *)
    | AWhole r =>
      let* o := operand cur fr st r in
      match o with
      | XArr b lens => let* ls := all_set lens in Ok (st, PArr b ls)                     (* a, Len(a, 0), ... *)
      | XRec p t =>
        if d_ref d then Ok (st, PRec p t)                                                (* &r, TypeOf(r) *)
        else let* c := rdc (c_mem st) p in Ok (st, PRecV c)
      | XAdr _ => UB
      end
    end
  end
with c_call_value (n cur : nat) (fr : list cvar) (own : nat) (st : cst) (r : ref) (sig : list decl) (l : list arg)
    {struct n} : res (cst * option val) :=
  match n with O => Fuel | S n =>
    let* (st1, a) := c_locate n cur fr own st (DVar r) in
    let* v := rd (c_mem st1) a in
    match v with
    | VInt _ => UB
    | VProc q =>
      match nth_error (procs P) q with
      | None => UB
      | Some pr =>
        if sig_eqb sig (p_params pr) then
          let* (st2, xs) := c_args n cur fr own st1 sig l in c_invoke n st2 q xs
        else UB
      end
    end
  end
(** A call of the C function: entry (OPC.EnterProc), body, end of the body (OPC.ExitProc with eoBlock), and the
    end of the function, where its storage goes. *)
with c_invoke (n : nat) (st : cst) (q : nat) (xs : list pass) {struct n} : res (cst * option val) :=
  match n with O => Fuel | S n =>
    match nth_error (procs P) q with
    | None => UB
    | Some pr =>
      let* (m1, ps) := c_params (c_mem st) (p_params pr) xs in
      let (m2, ls) := c_locals m1 (p_locals pr) in
      let own := length (c_str st) in
      let st1 := mkC m2 (c_ptr st) (c_str st) in
      let st2 := if scope_leaf q then st1 else link_scope st1 q (scope_fields q pr ps ls) in
      let* (st3, o) := c_execs n q (ps ++ ls) own st2 (p_body pr) in
      let give_back s := mkC (firstn (length (c_mem st)) (c_mem s)) (c_ptr s) (firstn (length (c_str st)) (c_str s)) in
      match o with
      | Some v => Ok (give_back st3, v)
      | None =>
        if implicit_return (p_body pr) then
          if p_fun pr then Trap (-3)                                      (* __RETCHK *)
          else Ok (give_back (unlink st3 q own), None)
        else Ok (give_back st3, None)
      end
    end
  end
with c_exec (n cur : nat) (fr : list cvar) (own : nat) (st : cst) (s : stat) {struct n}
    : res (cst * option (option val)) :=
  match n with O => Fuel | S n =>
    match s with
    | SAss d e =>
      let* (st1, a) := c_locate n cur fr own st d in
      let* (st2, v) := c_eval n cur fr own st1 e in
      let* m3 := wr (c_mem st2) a v in Ok (mkC m3 (c_ptr st2) (c_str st2), None)
    | SCall q l =>
      match nth_error (procs P) q with
      | None => UB
      | Some pr =>
        let* (st1, xs) := c_args n cur fr own st (p_params pr) l in
        let* (st2, _) := c_invoke n st1 q xs in Ok (st2, None)
      end
    | SCallV r sig l => let* (st1, _) := c_call_value n cur fr own st r sig l in Ok (st1, None)
    | SIf e a b =>
      let* (st1, v) := c_eval n cur fr own st e in
      match v with
      | VInt z => c_execs n cur fr own st1 (if z =? 0 then b else a)
      | VProc _ => UB
      end
    | SWhile e a =>
      let* (st1, v) := c_eval n cur fr own st e in
      match v with
      | VInt z =>
        if z =? 0 then Ok (st1, None)
        else let* (st2, o) := c_execs n cur fr own st1 a in
             match o with None => c_exec n cur fr own st2 s | Some _ => Ok (st2, o) end
      | VProc _ => UB
      end
    | SRet o =>                                       (* OPV.Mod 894-919 *)
      match nth_error (procs P) cur with
      | None => UB
      | Some pr =>
        match o with
        | None => Ok (unlink st cur own, Some None)
        | Some e =>
          if needs_retval cur pr then
            let* (st1, v) := c_eval n cur fr own st e in Ok (unlink st1 cur own, Some (Some v))
          else
            let* (st1, v) := c_eval n cur fr own (unlink st cur own) e in Ok (st1, Some (Some v))
        end
      end
    end
  end
with c_execs (n cur : nat) (fr : list cvar) (own : nat) (st : cst) (l : list stat) {struct n}
    : res (cst * option (option val)) :=
  match n with O => Fuel | S n =>
    match l with
    | [] => Ok (st, None)
    | s :: r =>
      let* (st1, o) := c_exec n cur fr own st s in
      match o with None => c_execs n cur fr own st1 r | Some _ => Ok (st1, o) end
    end
  end.
End C.

(** The whole program: static storage, all [P_s] null. *)
Definition c_run (P : prog) (n main : nat) : res (cst * option val) :=
  let (m, glob) := c_locals [] (globals P) in
  c_invoke P glob n (mkC m (repeat None (length (procs P))) []) main [].
