(** Specification for C87: how C reads a declaration (C11 6.7.6), and the C type that belongs to an Oberon type. *)
From Verif Require Import Base CdclModel.
Require Import Coq.Strings.String.
Local Open Scope list_scope.

(** Text with its brackets matched. *)
Inductive tree :=
  | Tok (t : tok)
  | Par (l : list tree)
  | Sq (l : list tree)
  | Br (l : list tree).
Fixpoint flat1 (t : tree) : list tok :=
  match t with
  | Tok t => [t]
  | Par l => LP :: flat_map flat1 l ++ [RP]
  | Sq l => LS :: flat_map flat1 l ++ [RS]
  | Br l => LC :: flat_map flat1 l ++ [RC]
  end.
Definition flat (l : list tree) : list tok := flat_map flat1 l.
Definition bracket (t : tok) : bool := match t with LP | RP | LS | RS | LC | RC => true | _ => false end.
Fixpoint matched (t : tree) : Prop :=
  match t with Tok t => bracket t = false | Par l | Sq l | Br l => (fix all (l : list tree) : Prop := match l with [] => True | t :: l => matched t /\ all l end) l end.
(** Types of C. *)
Definition name : Type := string * ext.
Inductive ctype :=
  | CName (x : string)
  | CStruct (tag : string)
  | CVoid
  | CPtr (c : ctype)
  | CArr (n : Z) (c : ctype)
  | CFun (c : ctype) (ps : list ctype)
  | CMembers (ms : list (option name * ctype)).
(** [declr T D x U]: after the type [T] the declarator [D] declares [x] (or nothing, if abstract) with the type [U].  [dir]: direct declarators.  [spec]: type
    specifiers.  [param], [plist]: parameters.  [members]: the members of a structure. *)
Inductive declr : ctype -> list tree -> option name -> ctype -> Prop :=
  | d_ptr T D x U : declr (CPtr T) D x U -> declr T (Tok TStar :: D) x U
  | d_dir T D x U : dir T D x U -> declr T D x U
with dir : ctype -> list tree -> option name -> ctype -> Prop :=
  | r_id T x e : dir T [Tok (TId x e)] (Some (x, e)) T
  | r_none T : dir T [] None T
  | r_par T D x U : D <> [] -> declr T D x U -> dir T [Par D] x U
  | r_arr T D n x U : dir (CArr n T) D x U -> dir T (D ++ [Sq [Tok (TNum n)]]) x U
  | r_fun T D P ps x U : plist P ps -> dir (CFun T (map snd ps)) D x U -> dir T (D ++ [Par P]) x U
with spec : list tree -> ctype -> Prop :=
  | s_name x : spec [Tok (TTy x)] (CName x)
  | s_tag x : spec [Tok (TSt x)] (CStruct x)
  | s_void : spec [Tok TVoid] CVoid
  | s_members M ms : members M ms -> spec [Tok TStruct; Br M] (CMembers ms)
with param : list tree -> option name -> ctype -> Prop :=
  | p_decl S T D x U : spec S T -> declr T D x U -> param (S ++ D) x U
with plist : list tree -> list (option name * ctype) -> Prop :=
  | l_void : plist [Tok TVoid] []
  | l_list P ps : plist1 P ps -> plist P ps
with plist1 : list tree -> list (option name * ctype) -> Prop :=
  | l_one P x U : param P x U -> U <> CVoid -> plist1 P [(x, U)]
  | l_cons P Q x U ps : param P x U -> U <> CVoid -> plist1 Q ps -> plist1 (P ++ Tok TComma :: Q) ((x, U) :: ps)
with members : list tree -> list (option name * ctype) -> Prop :=
  | m_nil : members [] []
  | m_cons P Q x U ms : param P x U -> members Q ms -> members (P ++ Tok TSemi :: Q) ((x, U) :: ms).
(** A text is a declaration of a name with a type. *)
Definition declares (text : list tok) (x : name) (U : ctype) : Prop :=
  exists D, Forall matched D /\ flat D = text /\ param D (Some x) U.

(** ** The C type that belongs to an Oberon type: the same one; open arrays are passed as a pointer to their elements; a pointer to an open array points to a
    structure with the lengths and the elements; a procedure is a pointer to a function.  [ct] of an open array is the type of its elements. *)
Definition array (t : ty) : bool := match t with Arr _ _ | Named _ KArray => true | _ => false end.
Definition open_array (t : ty) : bool := match t with Dyn _ _ => true | _ => false end.
Definition record (t : ty) : bool := match t with Rec _ | Named _ KRecord => true | _ => false end.
Fixpoint element (t : ty) : ty := match t with Dyn _ u => element u | _ => t end.
Fixpoint dims (t : ty) : nat := match t with Dyn _ u => S (dims u) | _ => 0 end.
Definition lengths (n : nat) : ctype := CArr (Z.of_nat n) (CName "ADDRESS").
Definition block (n : nat) (e : ctype) : ctype := CMembers [(Some ("len"%string, Plain), lengths n); (Some ("data"%string, Plain), CArr 1 e)].
Definition result (r : option string) : ctype := match r with Some r => CName r | None => CVoid end.
(** Parameters: a variable parameter is passed by its address (an array always is); the lengths of an open array follow it, and the type tag follows a variable
    record. *)
Definition passed (var : bool) (t : ty) (c : ctype) : ctype := if open_array t || var && negb (array t) then CPtr c else c.
Definition follow (show var : bool) (x : string) (t : ty) : list (option name * ctype) :=
  let nm e := if show then Some (x, e) else None in
  if open_array t then map (fun i => (nm (LenExt i), CName "ADDRESS")) (seq 0 (dims t))
  else if var && record t then [(nm TagExt, CPtr (CName "ADDRESS"))] else [].
Fixpoint ct (t : ty) : ctype :=
  match t with
  | Named x _ => CName x
  | Rec tag => CStruct tag
  | Arr n u => CArr n (ct u)
  | Dyn _ u => ct u
  | Ptr u => CPtr (if open_array u then block (dims u) (ct u) else ct u)
  | Proc r ps => CPtr (CFun (result r) (map snd (cparams false ps)))
  end
with cparams (show : bool) (ps : pars) : list (option name * ctype) :=
  match ps with
  | PNil => []
  | PCons var x t ps => (if show then Some (x, Plain) else None, passed var t (ct t)) :: follow show var x t ++ cparams show ps
  end.
(** What is declared for an object. *)
Definition declared (var scopeDef : bool) (t : ty) : ctype :=
  if open_array t || scopeDef || var && negb (array t) then CPtr (ct t) else ct t.
(** The rules of Oberon-2: pointers point to records and arrays (or, if nameless, to such pointers); open arrays are no elements of other arrays. *)
Fixpoint legal (t : ty) : Prop :=
  match t with
  | Named _ _ | Rec _ => True
  | Arr _ u => open_array u = false /\ legal u
  | Dyn _ u => legal u
  | Ptr u => (match u with Proc _ _ => False | _ => True end) /\ legal u
  | Proc _ ps => legals ps
  end
with legals (ps : pars) : Prop := match ps with PNil => True | PCons _ _ t ps => legal t /\ legals ps end.
(** Excluded: open arrays, used as parameters, with elements that are nameless arrays, and open arrays with a name whose elements have none. *)
Fixpoint with_name (t : ty) : bool := match t with Dyn b u => b || with_name u | _ => false end.
Definition simple (t : ty) : Prop :=
  match t with
  | Dyn _ _ => match element t with Arr _ _ => False | Named _ _ | Rec _ => True | _ => with_name t = false end
  | _ => True
  end.
Fixpoint covered (t : ty) : Prop :=
  match t with
  | Named _ _ | Rec _ => True
  | Arr _ u | Dyn _ u | Ptr u => covered u
  | Proc _ ps => covereds ps
  end
with covereds (ps : pars) : Prop := match ps with PNil => True | PCons _ _ t ps => simple t /\ covered t /\ covereds ps end.
(** A text is the head of a function: result, name, parameters with their names. *)
Definition heads (text : list tok) (x : string) (T : ctype) (ps : list (option name * ctype)) : Prop :=
  exists S P, Forall matched (S ++ [Tok (TId x Plain); Par P]) /\ flat (S ++ [Tok (TId x Plain); Par P]) = text /\ spec S T /\ plist P ps.
