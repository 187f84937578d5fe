(** Declarations in the generated C: src/compiler/OPC.Mod, DeclareBase, Stars, DeclareObj, AnsiParamList and ProcHeader.  The text is a list of tokens. *)
From Verif Require Import Base.
Require Import Coq.Strings.String.
Local Open Scope list_scope.

(** What follows the name in the text: nothing, "__len" with the dimension (none for the first), "__typ" (OPC.Mod 28-30). *)
Inductive ext := Plain | LenExt (dim : nat) | TagExt.
Inductive tok :=
  | TId (x : string) (e : ext)   (* the identifier of an object *)
  | TTy (x : string)             (* the identifier of a type that has been declared *)
  | TSt (x : string)             (* "struct" and the tag *)
  | TVoid | TStruct | TStar | TNum (n : Z) | TComma | TSemi | LP | RP | LS | RS | LC | RC.
(** A type as seen by these procedures (OPT.Mod 30-60).  [Named]: it has a name and is defined already, and is no open array; [Rec]: a record
    without a name, or one that is not defined yet and reached through a pointer, with the tag written by Andent (OPC.Mod 201-207); [Arr], [Ptr], [Proc]: types
    without a name, also the one that is just being defined, whose name DefineType takes away for the time (OPC.Mod 466-468); [Dyn]: an open array, with or
    without a name.  That a name is only met once it is defined is not the matter here.  The fields of a record that is being defined are those of C43. *)
Inductive kind := KArray | KRecord | KOther.
Inductive ty :=
  | Named (x : string) (k : kind)
  | Rec (tag : string)
  | Arr (n : Z) (t : ty)
  | Dyn (named : bool) (t : ty)
  | Ptr (t : ty)
  | Proc (r : option string) (ps : pars)
with pars :=
  | PNil
  | PCons (var : bool) (x : string) (t : ty) (ps : pars).
Definition isArr (t : ty) : bool := match t with Arr _ _ | Named _ KArray => true | _ => false end.
Definition isDyn (t : ty) : bool := match t with Dyn _ _ => true | _ => false end.
Definition isRec (t : ty) : bool := match t with Rec _ | Named _ KRecord => true | _ => false end.
(** OPC.Mod 137-161: what is written and openClause; [k] is the number of pointers the loop has seen. *)
Fixpoint Stars (t : ty) (k : nat) : list tok * bool :=
  match t with
  | Ptr u => Stars u (S k)
  | _ =>
    let '(s, o) :=
      match t with
      | Arr _ u => (fst (Stars u 0), true)
      | Dyn false u => if (k =? 0)%nat then (fst (Stars u 0), false) else ([], false)
      | Proc _ _ => ([LP; TStar], false)
      | _ => ([], false)
      end in
    if (k =? 0)%nat then (s, o) else (s ++ (if o then [LP] else []) ++ repeat TStar k, false)
  end.
(** OPC.Mod 332-342: the lengths but the first. *)
Fixpoint LenList (t : ty) (dim : nat) (show : bool) (x : string) : list tok :=
  match t with
  | Dyn _ u => [TComma; TTy "ADDRESS"] ++ (if show then [TId x (LenExt dim)] else []) ++ LenList u (S dim) show x
  | _ => []
  end.
(** [fst (fst (pr t))]: OPC.Mod 221-257 (DeclareBase); [snd (fst (pr t))]: its part for a pointer to an open array, which is written as a structure of lengths and
    elements; [snd (pr t)]: the loop of DeclareObj, with openClause (OPC.Mod 180-198); [list_of]: the loop of
    AnsiParamList (OPC.Mod 681-699), with DeclareObj (OPC.Mod 165-199) written out. *)
Fixpoint pr (t : ty) : list tok * (nat -> list tok) * (bool -> list tok) :=
  let base :=
    match t with
    | Named x _ => [TTy x]
    | Rec tag => [TSt tag]
    | Arr _ u => fst (fst (pr u))
    | Dyn _ u => fst (fst (pr u))
    | Ptr u => if isDyn u then snd (fst (pr u)) 0%nat else fst (fst (pr u))
    | Proc (Some r) _ => [TTy r]
    | Proc None _ => [TVoid]
    end in
  let suffix := fun open : bool =>
    let close := if open then [RP] else [] in
    match t with
    | Named _ _ | Rec _ => []
    | Arr n u => close ++ [LS; TNum n; RS] ++ snd (pr u) false
    | Dyn true u => []
    | Dyn false u => close ++ snd (pr u) false
    | Ptr u => if isDyn u then [] else snd (pr u) true
    | Proc _ ps => close ++ [RP] ++ [LP] ++ match ps with PNil => [TVoid] | _ => list_of false ps end ++ [RP]
    end in
  let block := fun dims : nat =>
    match t with
    | Dyn _ u => snd (fst (pr u)) (S dims)
    | _ =>
      [TStruct; LC; TTy "ADDRESS"; TId "len" Plain; LS; TNum (Z.of_nat dims); RS; TSemi] ++
      base ++ fst (Stars t 0) ++ [TId "data" Plain; LS; TNum 1; RS] ++ suffix false ++ [TSemi; RC]
    end in
  (base, block, suffix)
with list_of (show : bool) (ps : pars) : list tok :=
  match ps with
  | PNil => []
  | PCons var x t ps' =>
    let varPar := var && negb (isArr t) || isDyn t in
    let '(s, o) := Stars t 0 in
    fst (fst (pr t)) ++
    (s ++ (if varPar then (if o then [LP] else []) ++ [TStar] else []) ++ (if show then [TId x Plain] else []) ++ (if varPar && o then [RP] else []) ++ snd (pr t) false) ++
    (match t with
     | Dyn _ u => [TComma; TTy "ADDRESS"] ++ (if show then [TId x (LenExt 0)] else []) ++ LenList u 1 show x
     | _ => if var && isRec t then [TComma; TTy "ADDRESS"; TStar] ++ (if show then [TId x TagExt] else []) else []
     end) ++
    match ps' with PNil => [] | _ => [TComma] ++ list_of show ps' end
  end.
Definition DeclareBase (t : ty) : list tok := fst (fst (pr t)).
(** OPC.Mod 676-702. *)
Definition AnsiParamList (show : bool) (ps : pars) : list tok := [LP] ++ match ps with PNil => [TVoid] | _ => list_of show ps end ++ [RP].
(** OPC.Mod 165-199: DeclareObj; [var]: a variable parameter; [scopeDef]: a pointer in the record of an intermediate scope; [x]: the name, if there is one. *)
Definition DeclareObj (var scopeDef : bool) (x : option string) (t : ty) : list tok :=
  let varPar := var && negb (isArr t) || isDyn t || scopeDef in
  let '(s, o) := Stars t 0 in
  s ++ (if varPar then (if o then [LP] else []) ++ [TStar] else []) ++ (match x with Some x => [TId x Plain] | None => [] end) ++ (if varPar && o then [RP] else []) ++
  snd (pr t) false.
(** A declaration as written for fields (OPC.Mod 611), variables (OPC.Mod 651-657), type definitions (OPC.Mod 465-468): base, declarator. *)
Definition Declare (var scopeDef : bool) (x : string) (t : ty) : list tok := DeclareBase t ++ DeclareObj var scopeDef (Some x) t.
(** OPC.Mod 704-711. *)
Definition ProcHeader (r : option string) (x : string) (ps : pars) : list tok :=
  [match r with Some r => TTy r | None => TVoid end; TId x Plain] ++ AnsiParamList true ps.
