(** * Procedures nested in procedures: one step of each function of the two evaluators *)
From Verif Require Import Base NestSpec NestModel.
Local Open Scope Z_scope.
Section Equations.
Variable P : prog.
Variable glob : list obj.
Variable cglob : list cvar.

Local Notation eval := (NestSpec.eval P glob).
Local Notation locate := (NestSpec.locate P glob).
Local Notation evals := (NestSpec.evals P glob).
Local Notation evargs := (NestSpec.evargs P glob).
Local Notation evarg := (NestSpec.evarg P glob).
Local Notation call_value := (NestSpec.call_value P glob).
Local Notation invoke := (NestSpec.invoke P glob).
Local Notation exec := (NestSpec.exec P glob).
Local Notation execs := (NestSpec.execs P glob).
Lemma eval_S : forall n rho m e, eval (S n) rho m e =

    match e with
    | EInt z => Ok (m, VInt z)
    | EProc q => Ok (m, VProc q)
    | ERd d => let* (m1, a) := locate n rho m d in let* v := rd m1 a in Ok (m1, v)
    | ELen r k =>
      let* o := lookup glob rho r in
      match o with
      | OArr _ lens => match nth_error lens k with Some l => Ok (m, VInt (Z.of_nat l)) | None => UB end
      | _ => UB
      end
    | ETyp r =>
      let* o := lookup glob rho r in match o with ORec _ t => Ok (m, VInt (Z.of_nat t)) | _ => UB end
    | EBin f a b =>
      let* (m1, x) := eval n rho m a in
      let* (m2, y) := eval n rho m1 b in
      match x, y with VInt x, VInt y => Ok (m2, VInt (f x y)) | _, _ => UB end
    | ECall q l =>
      match nth_error (procs P) q with
      | None => UB
      | Some pr =>
        let* (m1, xs) := evargs n rho m (p_params pr) l in
        let* (m2, o) := invoke n rho m1 q xs in
        match o with Some v => Ok (m2, v) | None => UB end
      end
    | ECallV r sig l =>
      let* (m1, o) := call_value n rho m r sig l in
      match o with Some v => Ok (m1, v) | None => UB end
    end.
Proof. reflexivity. Qed.

Lemma locate_S : forall n rho m d, locate (S n) rho m d =

    match d with
    | DVar r =>
      let* o := lookup glob rho r in match o with OScal a => Ok (m, a) | ORec a _ => Ok (m, a) | _ => UB end
    | DElem r l =>
      let* o := lookup glob rho r in
      match o with
      | OArr b lens => let* (m1, ix) := evals n rho m l in let* k := offset 0 lens ix in Ok (m1, (b, k))
      | _ => UB
      end
    | DGuard r t =>
      let* o := lookup glob rho r in
      match o with ORec a t1 => if (t1 =? t)%nat then Ok (m, a) else Trap (-5) | _ => UB end
    end.
Proof. reflexivity. Qed.

Lemma evals_S : forall n rho m l, evals (S n) rho m l =

    match l with
    | [] => Ok (m, [])
    | e :: r =>
      let* (m1, v) := eval n rho m e in
      let* (m2, zs) := evals n rho m1 r in
      match v with VInt z => Ok (m2, z :: zs) | _ => UB end
    end.
Proof. reflexivity. Qed.

Lemma evargs_S : forall n rho m ds l, evargs (S n) rho m ds l =

    match ds, l with
    | [], [] => Ok (m, [])
    | d :: dr, a :: r =>
      let* (m1, x) := evarg n rho m d a in
      let* (m2, xs) := evargs n rho m1 dr r in
      Ok (m2, x :: xs)
    | _, _ => UB
    end.
Proof. reflexivity. Qed.

Lemma evarg_S : forall n rho m d a, evarg (S n) rho m d a =

    match a with
    | AVal e => let* (m1, v) := eval n rho m e in Ok (m1, PVal v)
    | ARef x => let* (m1, p) := locate n rho m x in Ok (m1, PRef p)
    | AWhole r =>
      let* o := lookup glob rho r in
      match o with
      | OArr b lens => Ok (m, PArr b lens)
      | ORec p t => if d_ref d then Ok (m, PRec p t) else let* c := rdc m p in Ok (m, PRecV c)
      | OScal _ => UB
      end
    end.
Proof. reflexivity. Qed.

Lemma call_value_S : forall n rho m r sig l, call_value (S n) rho m r sig l =

    let* (m1, a) := locate n rho m (DVar r) in
    let* v := rd m1 a in
    match v with
    | VInt _ => UB
    | VProc q =>
      match nth_error (procs P) q with
      | None => UB
      | Some pr =>
        if sig_eqb sig (p_params pr) then
          let* (m2, xs) := evargs n rho m1 sig l in
          match p_parent pr with
          | None => invoke n rho m2 q xs
          | Some _ => UB            
          end
        else UB
      end
    end.
Proof. reflexivity. Qed.

Lemma invoke_S : forall n rho m q xs, invoke (S n) rho m q xs =

    match nth_error (procs P) q with
    | None => UB
    | Some pr =>
      match decl_env rho (p_parent pr) with
      | None => UB
      | Some rho0 =>
        let* (m1, os) := bind_params m (p_params pr) xs in
        let (m2, ls) := new_locals m1 (p_locals pr) in
        let* (m3, o) := execs n ((q, os ++ ls) :: rho0) m2 (p_body pr) in
        match o with
        | Some v => Ok (firstn (length m) m3, v)
        | None => if p_fun pr then Trap (-3) else Ok (firstn (length m) m3, None)
        end
      end
    end.
Proof. reflexivity. Qed.

Lemma exec_S : forall n rho m s, exec (S n) rho m s =

    match s with
    | SAss d e =>
      let* (m1, a) := locate n rho m d in
      let* (m2, v) := eval n rho m1 e in
      let* m3 := wr m2 a v in Ok (m3, None)
    | SCall q l =>
      match nth_error (procs P) q with
      | None => UB
      | Some pr =>
        let* (m1, xs) := evargs n rho m (p_params pr) l in
        let* (m2, _) := invoke n rho m1 q xs in Ok (m2, None)
      end
    | SCallV r sig l => let* (m1, _) := call_value n rho m r sig l in Ok (m1, None)
    | SIf e a b =>
      let* (m1, v) := eval n rho m e in
      match v with
      | VInt z => execs n rho m1 (if z =? 0 then b else a)
      | VProc _ => UB
      end
    | SWhile e a =>
      let* (m1, v) := eval n rho m e in
      match v with
      | VInt z =>
        if z =? 0 then Ok (m1, None)
        else let* (m2, o) := execs n rho m1 a in
             match o with None => exec n rho m2 s | Some _ => Ok (m2, o) end
      | VProc _ => UB
      end
    | SRet None => Ok (m, Some None)
    | SRet (Some e) => let* (m1, v) := eval n rho m e in Ok (m1, Some (Some v))
    end.
Proof. reflexivity. Qed.

Lemma execs_S : forall n rho m l, execs (S n) rho m l =

    match l with
    | [] => Ok (m, None)
    | s :: r =>
      let* (m1, o) := exec n rho m s in
      match o with None => execs n rho m1 r | Some _ => Ok (m1, o) end
    end.
Proof. reflexivity. Qed.

Local Notation c_eval := (NestModel.c_eval P cglob).
Local Notation c_locate := (NestModel.c_locate P cglob).
Local Notation c_evals := (NestModel.c_evals P cglob).
Local Notation c_args := (NestModel.c_args P cglob).
Local Notation c_arg := (NestModel.c_arg P cglob).
Local Notation c_call_value := (NestModel.c_call_value P cglob).
Local Notation c_invoke := (NestModel.c_invoke P cglob).
Local Notation c_exec := (NestModel.c_exec P cglob).
Local Notation c_execs := (NestModel.c_execs P cglob).
Local Notation operand := (NestModel.operand P cglob).
Local Notation scope_leaf := (NestModel.scope_leaf P).
Local Notation unlink := (NestModel.unlink P).
Local Notation scope_fields := (NestModel.scope_fields P).
Local Notation own_level := (NestModel.own_level P).
Local Notation needs_retval := (NestModel.needs_retval P).
Lemma c_eval_S : forall n cur fr own st e, c_eval (S n) cur fr own st e =

    match e with
    | EInt z => Ok (st, VInt z)
    | EProc q => Ok (st, VProc q)
    | ERd d => let* (st1, a) := c_locate n cur fr own st d in let* v := rd (c_mem st1) a in Ok (st1, v)
    | ELen r k =>
      let* o := operand cur fr st r in
      match o with
      | XArr _ lens => match nth_error lens k with Some (Some l) => Ok (st, VInt (Z.of_nat l)) | _ => UB end
      | _ => UB
      end
    | ETyp r =>
      let* o := operand cur fr st r in match o with XRec _ t => Ok (st, VInt (Z.of_nat t)) | _ => UB end
    | EBin f a b =>
      let* (st1, x) := c_eval n cur fr own st a in
      let* (st2, y) := c_eval n cur fr own st1 b in
      match x, y with VInt x, VInt y => Ok (st2, VInt (f x y)) | _, _ => UB end
    | ECall q l =>
      match nth_error (procs P) q with
      | None => UB
      | Some pr =>
        let* (st1, xs) := c_args n cur fr own st (p_params pr) l in
        let* (st2, o) := c_invoke n st1 q xs in
        match o with Some v => Ok (st2, v) | None => UB end
      end
    | ECallV r sig l =>
      let* (st1, o) := c_call_value n cur fr own st r sig l in
      match o with Some v => Ok (st1, v) | None => UB end
    end.
Proof. reflexivity. Qed.

Lemma c_locate_S : forall n cur fr own st d, c_locate (S n) cur fr own st d =

    match d with
    | DVar r =>
      let* o := operand cur fr st r in match o with XAdr a => Ok (st, a) | XRec a _ => Ok (st, a) | _ => UB end
    | DElem r l =>                                   
      let* o := operand cur fr st r in
      match o with
      | XArr b lens =>
        let* (st1, ix) := c_evals n cur fr own st l in
        let* ls := all_set lens in
        let* k := offset 0 ls ix in Ok (st1, (b, k))
      | _ => UB
      end
    | DGuard r t =>                                  
      if own_level cur r then
        let* o := operand cur fr st r in
        match o with XRec a t1 => if (t1 =? t)%nat then Ok (st, a) else Trap (-5) | _ => UB end
      else UB
    end.
Proof. reflexivity. Qed.

Lemma c_evals_S : forall n cur fr own st l, c_evals (S n) cur fr own st l =

    match l with
    | [] => Ok (st, [])
    | e :: r =>
      let* (st1, v) := c_eval n cur fr own st e in
      let* (st2, zs) := c_evals n cur fr own st1 r in
      match v with VInt z => Ok (st2, z :: zs) | _ => UB end
    end.
Proof. reflexivity. Qed.

Lemma c_args_S : forall n cur fr own st ds l, c_args (S n) cur fr own st ds l =

    match ds, l with
    | [], [] => Ok (st, [])
    | d :: dr, a :: r =>
      let* (st1, x) := c_arg n cur fr own st d a in
      let* (st2, xs) := c_args n cur fr own st1 dr r in
      Ok (st2, x :: xs)
    | _, _ => UB
    end.
Proof. reflexivity. Qed.

Lemma c_arg_S : forall n cur fr own st d a, c_arg (S n) cur fr own st d a =

    match a with
    | AVal e => let* (st1, v) := c_eval n cur fr own st e in Ok (st1, PVal v)
    | ARef x => let* (st1, p) := c_locate n cur fr own st x in Ok (st1, PRef p)         
    | AWhole r =>
      let* o := operand cur fr st r in
      match o with
      | XArr b lens => let* ls := all_set lens in Ok (st, PArr b ls)                     
      | XRec p t =>
        if d_ref d then Ok (st, PRec p t)                                                
        else let* c := rdc (c_mem st) p in Ok (st, PRecV c)
      | XAdr _ => UB
      end
    end.
Proof. reflexivity. Qed.

Lemma c_call_value_S : forall n cur fr own st r sig l, c_call_value (S n) cur fr own st r sig l =

    let* (st1, a) := c_locate n cur fr own st (DVar r) in
    let* v := rd (c_mem st1) a in
    match v with
    | VInt _ => UB
    | VProc q =>
      match nth_error (procs P) q with
      | None => UB
      | Some pr =>
        if sig_eqb sig (p_params pr) then
          let* (st2, xs) := c_args n cur fr own st1 sig l in c_invoke n st2 q xs
        else UB
      end
    end.
Proof. reflexivity. Qed.

Lemma c_invoke_S : forall n st q xs, c_invoke (S n) st q xs =

    match nth_error (procs P) q with
    | None => UB
    | Some pr =>
      let* (m1, ps) := c_params (c_mem st) (p_params pr) xs in
      let (m2, ls) := c_locals m1 (p_locals pr) in
      let own := length (c_str st) in
      let st1 := mkC m2 (c_ptr st) (c_str st) in
      let st2 := if scope_leaf q then st1 else link_scope st1 q (scope_fields q pr ps ls) in
      let* (st3, o) := c_execs n q (ps ++ ls) own st2 (p_body pr) in
      let give_back s := mkC (firstn (length (c_mem st)) (c_mem s)) (c_ptr s) (firstn (length (c_str st)) (c_str s)) in
      match o with
      | Some v => Ok (give_back st3, v)
      | None =>
        if implicit_return (p_body pr) then
          if p_fun pr then Trap (-3)                                      
          else Ok (give_back (unlink st3 q own), None)
        else Ok (give_back st3, None)
      end
    end.
Proof. reflexivity. Qed.

Lemma c_exec_S : forall n cur fr own st s, c_exec (S n) cur fr own st s =

    match s with
    | SAss d e =>
      let* (st1, a) := c_locate n cur fr own st d in
      let* (st2, v) := c_eval n cur fr own st1 e in
      let* m3 := wr (c_mem st2) a v in Ok (mkC m3 (c_ptr st2) (c_str st2), None)
    | SCall q l =>
      match nth_error (procs P) q with
      | None => UB
      | Some pr =>
        let* (st1, xs) := c_args n cur fr own st (p_params pr) l in
        let* (st2, _) := c_invoke n st1 q xs in Ok (st2, None)
      end
    | SCallV r sig l => let* (st1, _) := c_call_value n cur fr own st r sig l in Ok (st1, None)
    | SIf e a b =>
      let* (st1, v) := c_eval n cur fr own st e in
      match v with
      | VInt z => c_execs n cur fr own st1 (if z =? 0 then b else a)
      | VProc _ => UB
      end
    | SWhile e a =>
      let* (st1, v) := c_eval n cur fr own st e in
      match v with
      | VInt z =>
        if z =? 0 then Ok (st1, None)
        else let* (st2, o) := c_execs n cur fr own st1 a in
             match o with None => c_exec n cur fr own st2 s | Some _ => Ok (st2, o) end
      | VProc _ => UB
      end
    | SRet o =>                                       
      match nth_error (procs P) cur with
      | None => UB
      | Some pr =>
        match o with
        | None => Ok (unlink st cur own, Some None)
        | Some e =>
          if needs_retval cur pr then
            let* (st1, v) := c_eval n cur fr own st e in Ok (unlink st1 cur own, Some (Some v))
          else
            let* (st1, v) := c_eval n cur fr own (unlink st cur own) e in Ok (st1, Some (Some v))
        end
      end
    end.
Proof. reflexivity. Qed.

Lemma c_execs_S : forall n cur fr own st l, c_execs (S n) cur fr own st l =

    match l with
    | [] => Ok (st, None)
    | s :: r =>
      let* (st1, o) := c_exec n cur fr own st s in
      match o with None => c_execs n cur fr own st1 r | Some _ => Ok (st1, o) end
    end.
Proof. reflexivity. Qed.

End Equations.
