(** Type and variable declarations: OPP.Mod RecordType (87-142), ArrayType (144-170), PointerType (172-197), FormalParameters (199-249),
    TypeDecl and Type (251-290) and the declaration part of Block (897-983), on the syntax trees of the declarations (the parsing itself is
    the subject of UnitModel).  Simplifications: array lengths, export marks, system flags and the field and parameter names are left out
    (duplicates among the latter are another error; a field or parameter with the name of a type hides that type inside the record or the
    parameter list, which can only cause error 52); a qualified name is a name of the outer scope; several fields or parameters declared
    with one type are one entry. *)
From Verif Require Import Base.
Open Scope nat_scope.

Definition name := Z.

(** The syntax of a type (OPP.Mod 251-285): a name, ARRAY n OF t, ARRAY OF t, RECORD (base) fields END, POINTER TO t, PROCEDURE (parameters): result. *)
Inductive texp :=
| TName (n : name)
| TArr (t : texp)
| TDyn (t : texp)
| TRec (base : option name) (fs : list texp)
| TPtr (t : texp)
| TProc (ps : list texp) (res : option name).

(** OPT.Mod 63-75 [StrDesc]: form, component kind, BaseTyp and link; structures are numbered, 0 is undftyp and 1 notyp.  For a pointer we
    also keep whether strobj is set. *)
Inductive struct :=
| SUndef
| SBasic
| SArr (b : nat)
| SDyn (b : nat)
| SRec (b : option nat) (fs : list nat)
| SPtr (b : nat) (named : bool)
| SProc (ps : list nat) (res : nat).
(** OPT.Mod 46-61 [ObjDesc]: a type (mode Typ) with its structure, or another object. *)
Inductive obj := OTyp (s : nat) | OOther.

(** The structures; the innermost scope and the scopes outside it (OPT.topScope); FwdPtr with the name each pointer waits for and whether
    that name has been cleared (OPP.Mod 178-181, 946); the errors reported. *)
Record state := mkst { heap : list struct; loc : list (name * obj); out : list (name * obj); fwd : list (nat * name * bool); errs : list Z }.
Definition err (n : Z) (st : state) : state := mkst (heap st) (loc st) (out st) (fwd st) (n :: errs st).
Definition with_heap (h : list struct) (st : state) : state := mkst h (loc st) (out st) (fwd st) (errs st).

Fixpoint assoc {A} (l : list (name * A)) (n : name) : option A :=
  match l with [] => None | (m, x) :: l => if (m =? n)%Z then Some x else assoc l n end.
(** OPT.Mod 437-453 [Find]: the innermost scope first. *)
Definition lookup (st : state) (n : name) : option obj := match assoc (loc st) n with Some o => Some o | None => assoc (out st) n end.

Fixpoint updn (h : list struct) (i : nat) (x : struct) : list struct :=
  match h, i with [], _ => [] | _ :: h, O => x :: h | y :: h, S i => y :: updn h i x end.
Fixpoint upda (l : list (name * obj)) (n : name) (o : obj) : list (name * obj) :=
  match l with [] => [] | (m, x) :: l => if (m =? n)%Z then (m, o) :: l else (m, x) :: upda l n o end.

(** The place of a VAR parameter of type Struct: the type of a named object, BaseTyp of a structure, or a local variable of the caller. *)
Inductive place := LObj (n : name) | LBase (s : nat) | LVar.
Definition setbase (s b : nat) (st : state) : state :=
  match nth_error (heap st) s with
  | Some (SArr _) => with_heap (updn (heap st) s (SArr b)) st
  | Some (SDyn _) => with_heap (updn (heap st) s (SDyn b)) st
  | Some (SPtr _ m) => with_heap (updn (heap st) s (SPtr b m)) st
  | _ => st
  end.
Definition store (l : place) (v : nat) (st : state) : state :=
  match l with
  | LObj n => mkst (heap st) (upda (loc st) n (OTyp v)) (out st) (fwd st) (errs st)
  | LBase s => setbase s v st
  | LVar => st
  end.

Definition is_dyn (st : state) (s : nat) : bool := match nth_error (heap st) s with Some (SDyn _) => true | _ => false end.
Definition is_rec (st : state) (s : nat) : bool := match nth_error (heap st) s with Some (SRec _ _) => true | _ => false end.
(** comp IN {Array, DynArr, Record}. *)
Definition is_comp (st : state) (s : nat) : bool :=
  match nth_error (heap st) s with Some (SArr _) | Some (SDyn _) | Some (SRec _ _) => true | _ => false end.

(** id^.typ = banned; [banned] is a VAR parameter too, and in a declaration it is the same place as [typ]: OPP.Mod 937, 253, 262, 96. *)
Definition is_banned (b : option name) (st : state) (s : nat) : bool :=
  match b with
  | None => false
  | Some n => match lookup st n with Some (OTyp x) => s =? x | _ => false end
  end.

Definition init (t : texp) : struct :=
  match t with
  | TName _ => SUndef
  | TArr _ => SArr 0
  | TDyn _ => SDyn 0
  | TRec _ _ => SRec None []
  | TPtr _ => SPtr 0 false
  | TProc _ _ => SProc [] 1
  end.
(** OPP.Mod 253-276, with the first lines of RecordType (90), ArrayType (148, 155) and PointerType (174): the structure is made and assigned to the
    place before its parts are read; a name is looked up ([qualident], 33-53). *)
Definition hdr (t : texp) (l : place) (b : option name) (st : state) : state * nat :=
  let st := store l 0 st in
  match t with
  | TName n =>
      match lookup st n with
      | Some (OTyp s) => if is_banned b st s then (err 58 st, 0) else (store l s st, s)
      | Some OOther => (err 52 st, 0)
      | None => (err 52 (err 0 st), 0)
      end
  | _ =>
      let s := length (heap st) in
      (store l s (with_heap (heap st ++ [init t]) st), s)
  end.
(** OPP.Mod 287-290 [Type], after TypeDecl. *)
Definition chkptr (s : nat) (st : state) : state :=
  match nth_error (heap st) s with Some (SPtr 0 false) => err 0 st | _ => st end.
(** OPP.Mod 94-104: the base of a record. *)
Definition rec_base (bo : option name) (s : nat) (b : option name) (st : state) : state :=
  match bo with
  | None => st
  | Some n =>
      match lookup st n with
      | Some (OTyp x) =>
          if is_rec st x then
            if is_banned b st x then err 58 st
            else match nth_error (heap st) s with
                 | Some (SRec _ fs) => with_heap (updn (heap st) s (SRec (Some x) fs)) st
                 | _ => st
                 end
          else err 52 st
      | Some OOther => err 52 st
      | None => err 52 (err 0 st)
      end
  end.
(** OPP.Mod 111-134: the type of a field is entered (simplification: the field itself is entered with it). *)
Definition addf (s r : nat) (st : state) : state :=
  match nth_error (heap st) s with
  | Some (SRec b fs) => with_heap (updn (heap st) s (SRec b (fs ++ [r]))) st
  | Some (SProc ps res) => with_heap (updn (heap st) s (SProc (ps ++ [r]) res)) st
  | _ => st
  end.
(** OPP.Mod 234-245: the result type of a procedure type. *)
Definition proc_result (res : option name) (s : nat) (st : state) : state :=
  match res with
  | None => st
  | Some n =>
      match lookup st n with
      | Some (OTyp x) =>
          if is_comp st x then err 54 st
          else match nth_error (heap st) s with
               | Some (SProc ps _) => with_heap (updn (heap st) s (SProc ps x)) st
               | _ => st
               end
      | Some OOther => err 52 st
      | None => err 52 (err 0 st)
      end
  end.
(** OPP.Mod 176-190: POINTER TO a name. *)
Definition ptr_name (n : name) (s : nat) (st : state) : state :=
  match lookup st n with
  | None =>
      if length (fwd st) <? 64 then mkst (heap st) (loc st) (out st) (fwd st ++ [(s, n, false)]) (errs st)
      else err 224 st
  | Some (OTyp x) => if is_comp st x then setbase s x st else err 57 st
  | Some OOther => err 52 st
  end.
(** The rest of TypeDecl, for the structure [s] made by [hdr]. *)
Fixpoint body (t : texp) (s : nat) (b : option name) (st : state) {struct t} : state :=
  match t with
  | TName _ => st
  | TArr t1 =>
      let '(st, r) := hdr t1 (LBase s) b st in
      let st := chkptr r (body t1 r b st) in
      if is_dyn st r then err 88 (setbase s 0 st) else st
  | TDyn t1 =>
      let '(st, r) := hdr t1 (LBase s) b st in
      chkptr r (body t1 r b st)
  | TRec bo fs =>
      (fix fields (fs : list texp) (st : state) {struct fs} : state :=
         match fs with
         | [] => st
         | f :: fs =>
             let '(st, r) := hdr f LVar b st in
             let st := chkptr r (body f r b st) in
             let '(st, r) := if is_dyn st r then (err 88 st, 0) else (st, r) in
             fields fs (addf s r st)
         end) fs (rec_base bo s b st)
  | TPtr t1 =>
      match t1 with
      | TName n => ptr_name n s st
      | _ =>
          let '(st, r) := hdr t1 (LBase s) None st in
          let st := chkptr r (body t1 r None st) in
          if is_comp st r then st else err 57 (setbase s 0 st)
      end
  | TProc ps res =>
      let st :=
        (fix params (ps : list texp) (st : state) {struct ps} : state :=
           match ps with
           | [] => st
           | p :: ps =>
               let '(st, r) := hdr p LVar None st in
               params ps (addf s r (chkptr r (body p r None st)))
           end) ps st in
      proc_result res s st
  end.
(** OPP.Mod 251-285 [TypeDecl] and 287-290 [Type]; the result is what the place holds afterwards. *)
Definition TypeDecl (t : texp) (l : place) (b : option name) (st : state) : state * nat :=
  let '(st, s) := hdr t l b st in (body t s b st, s).
Definition Type_ (t : texp) (l : place) (b : option name) (st : state) : state * nat :=
  let '(st, s) := TypeDecl t l b st in (chkptr s st, s).

(** Block, OPP.Mod 904-976. *)
Inductive item := DConst (n : name) | DType (n : name) (t : texp) | DVar (ns : list name) (t : texp).
(** OPT.Mod 470-490 [Insert] in the innermost scope: error 1 for a name declared twice. *)
Definition insert (n : name) (o : obj) (st : state) : state :=
  let st := match assoc (loc st) n with Some _ => err 1 st | None => st end in
  mkst (heap st) ((n, o) :: loc st) (out st) (fwd st) (errs st).
(** OPP.Mod 942: strobj. *)
Definition set_named (s : nat) (st : state) : state :=
  match nth_error (heap st) s with Some (SPtr b _) => with_heap (updn (heap st) s (SPtr b true)) st | _ => st end.
(** OPP.Mod 943-948. *)
Fixpoint resolve (l : list (nat * name * bool)) (n : name) (r : nat) (h : list struct) : list (nat * name * bool) * list struct :=
  match l with
  | [] => ([], h)
  | (s, m, done) :: l =>
      if negb done && (m =? n)%Z then
        let h := match nth_error h s with Some (SPtr _ nm) => updn h s (SPtr r nm) | _ => h end in
        let '(l, h) := resolve l n r h in ((s, m, true) :: l, h)
      else
        let '(l, h) := resolve l n r h in ((s, m, done) :: l, h)
  end.
Definition declare (d : item) (st : state) : state :=
  match d with
  | DConst n => insert n OOther st
  | DType n t =>
      let st := insert n (OTyp 0) st in
      let '(st, s) := TypeDecl t (LObj n) (Some n) st in
      let st := set_named s st in
      if is_comp st s then let '(f, h) := resolve (fwd st) n s (heap st) in mkst h (loc st) (out st) f (errs st) else st
  | DVar ns t =>
      let st := fold_left (fun st n => insert n OOther st) ns st in
      let '(st, s) := Type_ t LVar None st in
      if is_dyn st s then err 88 st else st
  end.
(** OPP.Mod 978-983. *)
Definition unresolved (f : nat * name * bool) : bool := negb (snd f).
Definition block (ds : list item) (st : state) : state :=
  let st := fold_left (fun st d => declare d st) ds st in
  mkst (heap st) (loc st) (out st) (fwd st) (map (fun _ => 128%Z) (filter unresolved (fwd st)) ++ errs st).
