(** The order in which types are defined in the generated C: src/compiler/OPC.Mod, DefineType, DeclareTProcs, TypeDefs and DefAnonRecs. *)
From Verif Require Import Base.
Local Open Scope list_scope.

Definition tid := nat.
(** How a type is named (OPT.Mod: strobj): not at all; by this module; elsewhere (imported or predeclared, OPV.Mod 140-155). *)
Inductive naming := Anonymous | Local | Outside.
(** A type-bound procedure: result, parameters with the receiver, and whether this file declares it (OPC.Mod 381-389: in the header only the exported ones). *)
Record method := mkm { mres : option tid; mpar : list tid; mshown : bool }.
(** Forms of types (OPT.Mod 30-60).  The fields of a record are those this file looks at: all in the body, the exported ones in the header (OPC.Mod 448-452). *)
Inductive shape :=
  | SBasic
  | SRec (base : option tid) (fields : list tid) (methods : list method)
  | SPtr (b : tid)
  | SArr (b : tid)
  | SProc (r : option tid) (ps : list tid).
(** A type, and whether this file takes it (OPC.Mod 436: all in the body, those of the symbol file in the header).  Imported types without a name, which only occur in inherited fields, are left out. *)
Record node := mkn { nname : naming; nshape : shape; nshown : bool }.
(** linkadr (OPC.Mod 14-16). *)
Inductive status := Undef | Processing | Predefined | Defined.
Definition status_eqb (a b : status) : bool :=
  match a, b with Undef, Undef | Processing, Processing | Predefined, Predefined | Defined, Defined => true | _, _ => false end.
(** What is written: the definition of a type, the head of a type-bound procedure, and the structure of a record without a name. *)
Inductive item := Def (t : tid) | Head (t : tid) (m : method) | Struct (t : tid).
Record state := mk { st : tid -> status; errs : nat; out : list item }.
Section Table.
Variable tab : list node.
Definition nd (t : tid) : node := nth t tab (mkn Outside SBasic true).
Definition set (s : state) (t : tid) (v : status) : state := mk (fun u => if (u =? t)%nat then v else st s u) (errs s) (out s).
Definition mark (s : state) : state := mk (st s) (S (errs s)) (out s).
Definition emit (s : state) (i : item) : state := mk (st s) (errs s) (out s ++ [i]).
(** OPC.Mod 209-217. *)
Definition Undefined (s : state) (t : tid) : bool := match st s t with Undef | Processing => true | _ => false end.
Definition opt (t : option tid) : list tid := match t with Some t => [t] | None => [] end.
Fixpoint each {A} (g : A -> state -> res state) (l : list A) (s : state) : res state :=
  match l with [] => Ok s | a :: l => let* s := g a s in each g l s end.
Definition is_ptr (t : tid) : bool := match nshape (nd t) with SPtr _ => true | _ => false end.
Definition is_rec (t : tid) : bool := match nshape (nd t) with SRec _ _ _ => true | _ => false end.
Definition local (t : tid) : bool := match nname (nd t) with Local => true | _ => false end.
(** OPC.Mod 433-481; the heads of type-bound procedures with the types they need: OPC.Mod 367-393.  244 is marked by [mark]. *)
Fixpoint DefineType (f : nat) (t : tid) (s : state) : res state :=
  match f with
  | O => Fuel
  | S f =>
    if negb (nshown (nd t)) then Ok s else
    let* s :=
      if match nname (nd t) with Anonymous => true | Local => Undefined s t | Outside => false end then
        let s :=
          if local t then
            if status_eqb (st s t) Processing then (if is_ptr t then s else set (mark s) t Predefined) else set s t Processing
          else s in
        match nshape (nd t) with
        | SBasic => Ok s
        | SRec b fs _ => let* s := each (DefineType f) (opt b) s in each (DefineType f) fs s
        | SPtr b => if is_rec b then Ok s else DefineType f b s
        | SArr b => let s := if local b && status_eqb (st s b) Processing then set (mark s) b Predefined else s in DefineType f b s
        | SProc r ps => let* s := each (DefineType f) (opt r) s in each (DefineType f) ps s
        end
      else Ok s in
    if local t && Undefined s t then
      let s := set (emit s (Def t)) t Defined in
      match nshape (nd t) with
      | SRec _ _ ms =>
        each (fun m s =>
          let* s := each (DefineType f) (opt (mres m)) s in
          if mshown m then
            let* s := each (DefineType f) (opt (mres m)) s in
            let* s := each (DefineType f) (mpar m) s in
            Ok (emit s (Head t m))
          else Ok s) ms s
      | _ => Ok s
      end
    else Ok s
  end.
(** OPC.Mod 510-518: the types of a scope, in the order of the tree. *)
Definition TypeDefs (f : nat) (ts : list tid) (s : state) : res state := each (DefineType f) ts s.
(** OPC.Mod 520-533: the records without a name, in the order of their declaration. *)
Definition DefAnonRecs (f : nat) (rs : list tid) (s : state) : res state :=
  each (fun r s => if negb (local r) && nshown (nd r) then let* s := DefineType f r s in Ok (emit s (Struct r)) else Ok s) rs s.
(** OPC.Mod 768-769, 837-838. *)
Definition Gen (f : nat) (rs ts : list tid) : res state :=
  let* s := DefAnonRecs f rs (mk (fun _ => Undef) 0 []) in TypeDefs f ts s.
End Table.
