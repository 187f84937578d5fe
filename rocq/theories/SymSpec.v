(** What a client has to see of an exported module, stated without the file.  The exporting compiler has the types of a [graph]; the importing one a table of
    [istr].  [rho] says which entry of the table stands for which exported type. *)
From Verif Require Import Base SymModel SymBytes.

Section Spec.
Variable g : graph.
(** The addresses of the pointers inside the hidden field [f]. *)
Variable H : fld -> list Z.

Definition modname (i : nat) : name := nth (smno (str_of g i)) (modnames g) [].

(** ** Corresponding types, parameters, fields, procedures *)
Section Corr.
Variable rho : nat -> option nat.
Definition tcorr (t t' : ty) : Prop := match t with TS i => exists s, rho i = Some s /\ t' = TS s | _ => t' = t end.
Definition pcorr (p p' : param) : Prop := pvar p' = pvar p /\ tcorr (ptyp p) (ptyp p') /\ padr p' = padr p /\ pname p' = pname p.
Definition scorr (s s' : sign) : Prop := tcorr (sres s) (sres s') /\ Forall2 pcorr (spar s) (spar s').
Definition fcorr (f f' : fld) : Prop := fname f' = fname f /\ fvis f' = fvis f /\ tcorr (ftyp f) (ftyp f') /\ fadr f' = fadr f.
Definition tpcorr (p p' : tproc) : Prop := tname p' = tname p /\ tvis p' = tvis p /\ scorr (tsig p) (tsig p') /\ tnum p' = tnum p.
Definition kcorr (k k' : kind) : Prop :=
  match k, k' with
  | KCon c, KCon c' => c' = c
  | KTyp t, KTyp t' => tcorr t t'
  | KVar t, KVar t' => tcorr t t'
  | KProc p s, KProc p' s' => p' = p /\ scorr s s'
  | _, _ => False
  end.
End Corr.

(** The fields a client sees: exported ones as they are, and for each pointer in a hidden one an entry for the collector. *)
Definition seen (fs : list fld) : list fld :=
  flat_map (fun f => match fvis f with Internal => map (fun a => mkfld HdPtrName Internal (TB 0) a) (H f) | _ => [f] end) fs.
Definition exported (ps : list tproc) : list tproc := filter (fun p => match tvis p with Internal => false | _ => true end) ps.
Definition member_name (m : member) : name := match m with MF f => fname f | MP p => tname p end.

(** The number of base types of a record, and of open dimensions inside an open array. *)
Inductive Depth : nat -> Z -> Prop :=
| D_root i al n fs ps : sshape (str_of g i) = Rec None al n fs ps -> Depth i 0
| D_ext i j d al n fs ps : sshape (str_of g i) = Rec (Some (TS j)) al n fs ps -> Depth j d -> Depth i (d + 1).
Definition is_dyn (t : ty) : bool := match shape_of g t with Some (DynArr _) => true | _ => false end.
Inductive Dims : nat -> Z -> Prop :=
| N_one i b : sshape (str_of g i) = DynArr b -> is_dyn b = false -> Dims i 0
| N_more i j d : sshape (str_of g i) = DynArr (TS j) -> is_dyn (TS j) = true -> Dims j d -> Dims i (d + 1).

Definition form_of (s : shape) : Z := match s with Pointer _ => 11 | Proc _ => 12 | _ => 13 end.
Definition comp_of (s : shape) : Z := match s with Pointer _ => 1 | Proc _ => 1 | Array _ _ => 2 | DynArr _ => 3 | Rec _ _ _ _ _ => 4 end.

(** Entry [x] is exported type [i]: name, module (by the name [mn] it has in the client), flags, size, and everything its form has. *)
Definition corr (rho : nat -> option nat) (mn : nat -> option name) (i : nat) (x : istr) : Prop :=
  let s := str_of g i in
  iname x = sname s /\ mn (imno x) = Some (modname i) /\ iflag x = sysflag s /\ isize x = ssize s /\ iform x = form_of (sshape s) /\ icomp x = comp_of (sshape s) /\
  match sshape s with
  | Pointer b => exists b', ibase x = Some b' /\ tcorr rho b b'
  | Proc sg => exists b', ibase x = Some b' /\ scorr rho sg (mksig b' (ipars x))
  | Array b n => inum x = n /\ exists b', ibase x = Some b' /\ tcorr rho b b'
  | DynArr b => Dims i (inum x) /\ exists b', ibase x = Some b' /\ tcorr rho b b'
  | Rec base al n fs ps =>
      match base with None => ibase x = None | Some b => exists b', ibase x = Some b' /\ tcorr rho b b' end /\
      ialign x = al /\ inum x = n /\ Depth i (iext x) /\ Forall2 (fcorr rho) (seen fs) (iflds x) /\
      exists ps', Forall2 (tpcorr rho) (exported ps) ps' /\ forall nm, find nm (itree x) = first member_name nm (map MF (iflds x) ++ map MP ps')
  end.

(** ** What is assumed of the exported module *)

(** The types a type mentions in the file. *)
Definition sig_types (s : sign) : list ty := sres s :: map ptyp (spar s).
Definition refers (s : shape) : list ty :=
  match s with
  | Pointer b => [b] | Array b _ => [b] | DynArr b => [b] | Proc s => sig_types s
  | Rec base _ _ fs ps =>
      match base with Some b => [b] | None => [] end ++ map ftyp (filter (fun f => match fvis f with Internal => false | _ => true end) fs) ++ flat_map (fun p => sig_types (tsig p)) (exported ps)
  end.
Inductive Reach (t : ty) : nat -> Prop :=
| R_here i : t = TS i -> Reach t i
| R_step i j : Reach t i -> In (TS j) (refers (sshape (str_of g i))) -> Reach t j.
(** The part of a type that is read before its size is known. *)
Definition early_part (s : shape) : option ty := match s with Array b _ => Some b | DynArr b => Some b | Rec b _ _ _ _ => b | _ => None end.
Definition elem_type (s : shape) : option ty := match s with Array b _ => Some b | DynArr b => Some b | _ => None end.

Definition ok_ty (t : ty) : Prop :=
  match t with TB f => 0 <= f < 12 /\ f <> 4 /\ f <> 7 | TInt s => s = 1 \/ s = 2 \/ s = 4 \/ s = 8 | TSet s => s = 4 \/ s = 8 | TS _ => True end.
(** Identifiers: not empty, and no 0X and no @ as first character. *)
Definition ok_name (n : name) : Prop := n <> [] /\ ~ In 0 n /\ hd 0 n <> 64.
Definition ok_par (p : param) : Prop := ok_ty (ptyp p) /\ in_int 32 (padr p) /\ ok_name (pname p).
Definition ok_sign (s : sign) : Prop := ok_ty (sres s) /\ Forall ok_par (spar s).
Definition ok_fld (f : fld) : Prop := match fvis f with Internal => Forall (in_int 32) (H f) | _ => ok_ty (ftyp f) /\ in_int 32 (fadr f) /\ ok_name (fname f) end.
(** Only variables and fields can be exported read-only. *)
Definition ok_tproc (p : tproc) : Prop := tvis p <> ReadOnly /\ ok_sign (tsig p) /\ in_int 32 (tnum p) /\ ok_name (tname p).
Definition ok_str (s : str) : Prop :=
  (sname s = [] \/ ok_name (sname s)) /\ in_int 16 (sysflag s) /\ in_int 32 (ssize s) /\ 0 <= ssize s /\
  match sshape s with
  | Pointer b => ok_ty b /\ ssize s = 8
  | Proc sg => ok_sign sg /\ ssize s = 8
  | Array b n => ok_ty b /\ in_int 32 n /\ 1 <= n /\ ssize s = n * size_of g b
  | DynArr b => ok_ty b /\ ssize s = if is_dyn b then size_of g b + 4 else 8
  | Rec base al n fs ps =>
      match base with None => True | Some (TS j) => is_record g (TS j) = true | Some _ => False end /\
      in_int 32 al /\ in_int 32 n /\ Forall ok_fld fs /\ Forall ok_tproc ps
  end.
Definition ok_const (c : const) : Prop :=
  match c with
  | CBool v | CChar v => 0 <= v < 256
  | CInt v s => in_int 32 v /\ (s = 1 \/ s = 2 \/ s = 4 \/ s = 8)
  | CSet v s => 0 <= v < 2 ^ 64 /\ (s = 4 \/ s = 8)
  | CReal bs => length bs = 4%nat
  | CLReal bs => length bs = 8%nat
  | CString s => ~ In 0 s
  | CNil => True
  end.
Definition ok_obj (o : obj) : Prop :=
  match okind o with
  | KCon c => ovis o <> ReadOnly /\ ok_const c
  | KTyp t => ovis o <> ReadOnly /\ ok_ty t
  | KVar t => ok_ty t
  | KProc p s => ovis o <> ReadOnly /\ ok_sign s /\ match p with PC code => (length code <= 255)%nat | _ => True end
  end.

Record wf : Prop := mkwf {
  wf_strs : forall i, ok_str (str_of g i);
  (** the record hierarchy is finite *)
  wf_depth : forall i, is_record g (TS i) = true -> exists d, Depth i d;
  (** no array type can be reached from what is read of its element type before the size of that *)
  wf_early : forall a e b, elem_type (sshape (str_of g a)) = Some (TS e) -> early_part (sshape (str_of g e)) = Some b -> ~ Reach b a;
  (** a named type is known by module and name *)
  wf_names : forall i j, sname (str_of g i) <> [] -> sname (str_of g i) = sname (str_of g j) -> modname i = modname j -> i = j;
  wf_mods : NoDup (modnames g) /\ Forall (fun n => ~ In 0 n) (modnames g);
  wf_smno : forall i, (smno (str_of g i) < length (modnames g))%nat;
  (** the module scope *)
  wf_objs : Forall (fun no => ok_name (fst no) /\ (ovis (snd no) <> Internal -> ok_obj (snd no))) (objects g);
  wf_nodup : NoDup (map fst (objects g));
  wf_own : forall i, smno (str_of g i) = 0%nat -> sname (str_of g i) <> [] -> exists v, In (sname (str_of g i), mkobj v (KTyp (TS i))) (objects g) }.

(** The pointers inside hidden fields, as the compiler looks for them. *)
Fixpoint hid_elems (k : nat) (one : Z -> option (list Z)) (adr size : Z) : option (list Z) :=
  match k with
  | O => Some []
  | S k => match one adr, hid_elems k one (adr + size) size with Some a, Some b => Some (a ++ b) | _, _ => None end
  end.
Fixpoint hid_flds (one : ty -> name -> Z -> option (list Z)) (fs : list fld) (adr : Z) : option (list Z) :=
  match fs with
  | [] => Some []
  | f :: fs => match one (ftyp f) (fname f) (fadr f + adr), hid_flds one fs adr with Some a, Some b => Some (a ++ b) | _, _ => None end
  end.
Fixpoint hid (fuel : nat) (t : ty) (n : name) (adr : Z) : option (list Z) :=
  match fuel with
  | O => None
  | S fuel =>
      if is_record g t then hid_flds (hid fuel) (fields g t) adr
      else if is_array g t then
        match elem g fuel t 1 with
        | Ok (b, k) => if is_pointer g b || is_record g b then hid_elems (Z.to_nat k) (hid fuel b n) adr (size_of g b) else Some []
        | _ => None
        end
      else Some (if is_pointer g t || (if list_eq_dec Z.eq_dec n HdPtrName then true else false) then [adr] else [])
  end.
Definition hidden_ptrs (f : fld) (l : list Z) : Prop := exists fuel, hid fuel (ftyp f) (fname f) (fadr f) = Some l.
(** The number of hidden pointers of a type, and of all types. *)
Definition nhidden (i : nat) : Z :=
  match sshape (str_of g i) with Rec _ _ _ fs _ => fold_right (fun f n => match fvis f with Internal => Zlength (H f) | _ => 0 end + n) 0 fs | _ => 0 end.
Definition total_hidden : Z := fold_right (fun i n => nhidden i + n) 0 (seq 0 (length (types g))).
(** [H] gives the pointers of every hidden field. *)
Definition hiddens : Prop := forall i base al n fs ps f, sshape (str_of g i) = Rec base al n fs ps -> In f fs -> fvis f = Internal -> hidden_ptrs f (H f).

(** ** The client *)

(** What name [n] of module [mn] is to the importing compiler. *)
Definition look (ms : list (name * tree obj)) (mn n : name) : option obj :=
  match mod_index mn ms 0 with Some m => match nth_error ms m with Some (_, t) => find n t | None => None end | None => None end.
Local Notation M0 := (nth 0 (modnames g) []).

(** What it knows already: [ts] are its types, [ms] its modules.  [K] tells which types of the exporting module it has seen through other modules. *)
Record client (self : name) (K : nat -> option nat) (ts : list istr) (ms : list (name * tree obj)) : Prop := mkclient {
  c_self : ~ In self (modnames g);
  (** GlbMod has 64 entries *)
  c_room : (length (nodup (list_eq_dec Z.eq_dec) (map fst ms ++ modnames g)) <= 64)%nat;
  c_nodup : NoDup (map fst ms);
  c_at : forall m n t, nth_error ms m = Some (n, t) -> find AT t = None;
  (** the types it has seen are the same *)
  c_known : forall i s, K i = Some s -> sname (str_of g i) <> [] /\ exists x, nth_error ts s = Some x /\ iname x = sname (str_of g i) /\ mod_index (modname i) ms 0 = Some (imno x) /\
            isize x = ssize (str_of g i) /\ iform x = form_of (sshape (str_of g i)) /\ icomp x = comp_of (sshape (str_of g i));
  c_names : forall i, sname (str_of g i) <> [] ->
            match K i with
            | Some s => exists o, look ms (modname i) (sname (str_of g i)) = Some o /\ okind o = KTyp (TS s)
            | None => look ms (modname i) (sname (str_of g i)) = None
            end;
  (** the module itself has not been imported *)
  c_new : forall n o, n <> [] -> look ms M0 n = Some o -> ovis o = Internal /\ exists i, sname (str_of g i) = n /\ modname i = M0 }.

(** What it knows after the import ([ts'], [ms']); [m] is the number of the module. *)
Record sees (K : nat -> option nat) (ts : list istr) (ms : list (name * tree obj)) (ts' : list istr) (ms' : list (name * tree obj)) (m : nat) (rho : nat -> option nat) : Prop := mksees {
  s_mod : mod_index M0 ms' 0 = Some m;
  (** every exported object, with its visibility and type *)
  s_objects : forall n o, In (n, o) (objects g) -> ovis o <> Internal -> exists o', look ms' M0 n = Some o' /\ ovis o' = ovis o /\ kcorr rho (okind o) (okind o');
  (** and no other *)
  s_only : forall n o', n <> [] -> look ms' M0 n = Some o' -> ovis o' <> Internal -> exists o, In (n, o) (objects g) /\ ovis o = ovis o';
  (** the types *)
  s_types : forall i s, rho i = Some s -> exists x, nth_error ts' s = Some x /\ corr rho (fun k => option_map fst (nth_error ms' k)) i x;
  (** different types stay different, and the types seen before are the same as before *)
  s_inj : forall i j s, rho i = Some s -> rho j = Some s -> i = j;
  s_known : forall i s, rho i = Some s -> match K i with Some s' => s = s' | None => (length ts <= s)%nat end;
  (** nothing else changes *)
  s_frame : forall s x, nth_error ts s = Some x -> (forall i, rho i <> Some s) -> nth_error ts' s = Some x;
  s_modules : forall k mt, nth_error ms k = Some mt -> exists t, nth_error ms' k = Some (fst mt, t);
  s_keep : forall mn n o, mn <> M0 -> n <> [] -> look ms mn n = Some o -> look ms' mn n = Some o;
  s_other : forall mn n o, mn <> M0 -> n <> [] -> look ms' mn n = Some o -> look ms mn n = Some o \/ (ovis o = Internal /\ exists i, rho i <> None /\ mn = modname i /\ n = sname (str_of g i));
  (** every named type that was read, or known before, is found by its name *)
  s_names : forall i, sname (str_of g i) <> [] ->
            match (match rho i with Some s => Some s | None => K i end) with
            | Some s => exists o, look ms' (modname i) (sname (str_of g i)) = Some o /\ okind o = KTyp (TS s)
            | None => look ms' (modname i) (sname (str_of g i)) = None
            end;
  s_nodup : NoDup (map fst ms');
  s_at : forall k n t, nth_error ms' k = Some (n, t) -> find AT t = None;
  s_incl : incl (map fst ms') (map fst ms ++ modnames g) }.
End Spec.

(** ** Several modules *)

(** Two modules agree: what has the same name is the same type, and if one has a type of the other then the other has it. *)
Definition consistent (g g' : graph) : Prop :=
  nth 0 (modnames g) [] <> nth 0 (modnames g') [] /\
  (forall i j, sname (str_of g i) <> [] -> sname (str_of g i) = sname (str_of g' j) -> modname g i = modname g' j ->
     ssize (str_of g i) = ssize (str_of g' j) /\ form_of (sshape (str_of g i)) = form_of (sshape (str_of g' j)) /\ comp_of (sshape (str_of g i)) = comp_of (sshape (str_of g' j))) /\
  (forall i, sname (str_of g i) <> [] -> modname g i = nth 0 (modnames g') [] -> exists j, sname (str_of g' j) = sname (str_of g i) /\ modname g' j = modname g i) /\
  (forall j, sname (str_of g' j) <> [] -> modname g' j = nth 0 (modnames g) [] -> exists i, sname (str_of g i) = sname (str_of g' j) /\ modname g i = modname g' j).

(** An exported module: its types and objects, the pointers of its hidden fields, its imports, and its symbol file. *)
Record exported_module := mkem { eg : graph; eH : fld -> list Z; elinks : list name; efile : list Z }.
Definition ok_module (self : name) (e : exported_module) : Prop :=
  wf (eg e) (eH e) /\ hiddens (eg e) (eH e) /\ total_hidden (eg e) (eH e) <= MaxHdFld /\ Forall ok_name (elinks e) /\ ~ In self (modnames (eg e)) /\
  exists fuel, Export (eg e) fuel (elinks e) = Ok (efile e).
(** Importing one file after the other. *)
Fixpoint Imports (fuel : nat) (self : name) (files : list (list Z)) (ts : list istr) (ms : list (name * tree obj)) : res (list istr * list (name * tree obj)) :=
  match files with
  | [] => Ok (ts, ms)
  | f :: files => let* (_, r) := Import fuel self f ts ms in Imports fuel self files (tys r) (mods r)
  end.

(** Entry [s] is type [i] of [g], as far as name, module, size and form go. *)
Definition is_type (g : graph) (ts : list istr) (ms : list (name * tree obj)) (i s : nat) : Prop :=
  exists x, nth_error ts s = Some x /\ iname x = sname (str_of g i) /\ option_map fst (nth_error ms (imno x)) = Some (modname g i) /\
  isize x = ssize (str_of g i) /\ iform x = form_of (sshape (str_of g i)) /\ icomp x = comp_of (sshape (str_of g i)).
(** What holds after importing the modules [es]. *)
Record all_seen (es : list exported_module) (rhos : list (nat -> option nat)) (ts' : list istr) (ms' : list (name * tree obj)) : Prop := mkall {
  (** the exported objects of each, and no others *)
  a_objects : Forall2 (fun e rho => forall n o, In (n, o) (objects (eg e)) -> ovis o <> Internal -> exists o', look ms' (nth 0 (modnames (eg e)) []) n = Some o' /\ ovis o' = ovis o /\ kcorr rho (okind o) (okind o')) es rhos;
  a_only : Forall (fun e => forall n o', n <> [] -> look ms' (nth 0 (modnames (eg e)) []) n = Some o' -> ovis o' <> Internal -> exists o, In (n, o) (objects (eg e)) /\ ovis o = ovis o') es;
  (** their types *)
  a_types : Forall2 (fun e rho => forall i s, rho i = Some s -> is_type (eg e) ts' ms' i s) es rhos;
  a_inj : Forall (fun rho : nat -> option nat => forall i j s, rho i = Some s -> rho j = Some s -> i = j) rhos;
  (** the same name in two of them is the same type *)
  a_same : ForallOrdPairs (fun x y => forall i j s s', sname (str_of (eg (fst x)) i) <> [] -> sname (str_of (eg (fst x)) i) = sname (str_of (eg (fst y)) j) -> modname (eg (fst x)) i = modname (eg (fst y)) j ->
           snd x i = Some s -> snd y j = Some s' -> s = s') (combine es rhos);
  (** and a type without a name in one of them is not a type of another *)
  a_anon : ForallOrdPairs (fun x y => forall i j s, snd x i = Some s -> snd y j = Some s -> sname (str_of (eg (fst x)) i) <> [] /\ sname (str_of (eg (fst y)) j) <> []) (combine es rhos) }.
