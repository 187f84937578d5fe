(** Symbol files: what Export writes and Import reads (OPT.Mod 691-1298, OPM.Mod 551-655). *)
From Verif Require Import Base ScopeModel.

Definition name := list Z.

(** ** Numbers and names in the file *)

(** OPM.Mod 615 [SymWInt] = Files.WriteNum: groups of 7 bits, the last one without 80H (C17 is about this format on files). *)
Fixpoint num_ (fuel : nat) (x : Z) : list Z :=
  match fuel with
  | O => []
  | S fuel => if (-64 <=? x) && (x <? 64) then [x mod 128] else (x mod 128 + 128) :: num_ fuel (x / 128)
  end.
Definition num (x : Z) : list Z := num_ 11 x.
(** OPM.Mod 556 [SymRInt] = Files.ReadNum: the value, the rest of the file and whether its end was passed (then Files.Read has given 0X). *)
Fixpoint rnum (l : list Z) (q s : Z) : Z * list Z * bool :=
  match l with
  | [] => (q, [], true)
  | b :: l => if b >=? 128 then rnum l (q + (b - 128) * 2 ^ s) (s + 7) else (q + (b mod 64 - b / 64 * 64) * 2 ^ s, l, false)
  end.
(** OPT.Mod 1076-1080 [OutName], 715-721 [InName]. *)
Definition OutName (n : name) : list Z := n ++ [0].
Fixpoint InName (l : list Z) : name * list Z * bool :=
  match l with
  | [] => ([], [], true)
  | c :: l => if c =? 0 then ([], l, false) else let '(n, l', e) := InName l in (c :: n, l', e)
  end.

(** ** Types and objects *)

(** OPT.Mod Struct: the predefined types by form and size ([TB] the form; integer and set types are told apart by their size: OPT.Mod 237-250), and the
    declared ones by their place in a table. *)
Inductive ty := TB (form : Z) | TInt (size : Z) | TSet (size : Z) | TS (i : nat).
(** OPT.Mod 60 Object.vis. *)
Inductive vis := Internal | External | ReadOnly.
(** Parameters, fields and type-bound procedures (OPT.Mod ObjDesc: name, vis, typ, adr; [tnum] is adr DIV 10000H). *)
Record param := mkpar { pvar : bool; ptyp : ty; padr : Z; pname : name }.
Record sign := mksig { sres : ty; spar : list param }.
Record fld := mkfld { fname : name; fvis : vis; ftyp : ty; fadr : Z }.
Record tproc := mktp { tname : name; tvis : vis; tsig : sign; tnum : Z }.
(** Constants with their type.  Real constants are the bytes SymWReal and SymWLReal write. *)
Inductive const := CBool (v : Z) | CChar (v : Z) | CInt (v size : Z) | CSet (v size : Z) | CReal (bs : list Z) | CLReal (bs : list Z) | CString (s : name) | CNil.
(** Module-level objects.  [pkind] is XProc, IProc or CProc with its code. *)
Inductive pkind := PX | PI | PC (code : list Z).
Inductive kind := KCon (c : const) | KTyp (t : ty) | KVar (t : ty) | KProc (p : pkind) (s : sign).
Record obj := mkobj { ovis : vis; okind : kind }.

(** ** The exported module *)

(** OPT.Mod 74-87 StrDesc of the module being compiled, after TypSize.  The binary tree of type-bound procedures is given by its elements in order. *)
Inductive shape :=
| Pointer (base : ty)
| Proc (s : sign)
| Array (base : ty) (n : Z)
| DynArr (base : ty)
| Rec (base : option ty) (align n : Z) (flds : list fld) (procs : list tproc).
Record str := mkstr { smno : nat; sname : name; sysflag : Z; ssize : Z; sshape : shape }.
(** The types, the names of the modules (GlbMod; number 0 is the module itself) and the objects of the module scope in the order of the tree. *)
Record graph := mkgraph { types : list str; modnames : list name; objects : list (name * obj) }.

Definition undf : str := mkstr 0 [] 0 8 (Pointer (TB 0)).
Definition str_of (g : graph) (i : nat) : str := nth i (types g) undf.
(** OPM.Mod: AddressSize, here 8.  Sizes of the predefined types: OPT.Mod 1301, 1353-1376. *)
Definition AddressSize := 8.
Definition basic_size (f : Z) : Z := if f =? 5 then 4 else if f =? 6 then 8 else if f =? 11 then AddressSize else 1.
Definition size_of (g : graph) (t : ty) : Z := match t with TB f => basic_size f | TInt s => s | TSet s => s | TS i => ssize (str_of g i) end.
Definition shape_of (g : graph) (t : ty) : option shape := match t with TS i => Some (sshape (str_of g i)) | _ => None end.

(** ExpCtxt (OPT.Mod 198-203): the numbers given to types and modules, and nofhdfld. *)
Record wst := mkw { wref : nat -> option Z; wnext : Z; wloc : nat -> option Z; wnofm : Z; wcnt : Z }.
Definition upd {A} (f : nat -> option A) (i : nat) (v : A) : nat -> option A := fun j => if Nat.eqb j i then Some v else f j.
Definition set_cnt (w : wst) (c : Z) : wst := mkw (wref w) (wnext w) (wloc w) (wnofm w) c.

(** OPM.Mod 51-57. *)
Definition MaxHdFld := 2048.
Definition HdPtrName : name := [64; 112; 116; 114].
(** OPM.Mod MaxStruct. *)
Definition maxStruct := 255.

Section Export.
Variable g : graph.

(** OPT.Mod 1082-1090 [OutMod]. *)
Definition OutMod (m : nat) (w : wst) : res (list Z * wst) :=
  match wloc w m with
  | None => Ok (num 16 ++ OutName (nth m (modnames g) []), mkw (wref w) (wnext w) (upd (wloc w) m (wnofm w)) (wnofm w + 1) (wcnt w))
  | Some k => Ok (num (- k), w)
  end.

(** OPT.Mod 1107 and the loop 1111-1113: all dimensions of an array. *)
Fixpoint elem (fuel : nat) (t : ty) (n : Z) : res (ty * Z) :=
  match fuel with
  | O => Fuel
  | S fuel => match shape_of g t with Some (Array b m) => let* n := chk 32 (m * n) in elem fuel b n | _ => Ok (t, n) end
  end.
Definition is_pointer (t : ty) : bool := match t with TB f => f =? 11 | _ => match shape_of g t with Some (Pointer _) => true | _ => false end end.
Definition is_record (t : ty) : bool := match shape_of g t with Some (Rec _ _ _ _ _) => true | _ => false end.
Definition is_array (t : ty) : bool := match shape_of g t with Some (Array _ _) => true | _ => false end.
Definition fields (t : ty) : list fld := match shape_of g t with Some (Rec _ _ _ fs _) => fs | _ => [] end.

(** OPT.Mod 1110-1113: the elements 1, 2, ... of an array; [one] is OutHdFld of an element. *)
Fixpoint hd_elems (fuel : nat) (one : Z -> Z -> res (list Z * Z)) (i n adr size cnt : Z) : res (list Z * Z) :=
  match fuel with
  | O => Fuel
  | S fuel =>
      if (i <? n) && (cnt <=? MaxHdFld) then
        let* (a, c) := one (adr + size) cnt in
        let* (b, c') := hd_elems fuel one (i + 1) n (adr + size) size c in
        Ok (a ++ b, c')
      else Ok ([], cnt)
  end.
(** OPT.Mod 1123-1133 [OutFlds] with visible = FALSE. *)
Fixpoint hd_flds (one : ty -> name -> Z -> Z -> res (list Z * Z)) (fs : list fld) (adr cnt : Z) : res (list Z * Z) :=
  match fs with
  | [] => Ok ([], cnt)
  | f :: fs =>
      let* (a, c) := one (ftyp f) (fname f) (fadr f + adr) cnt in
      let* (b, c') := hd_flds one fs adr c in
      Ok (a ++ b, c')
  end.
(** OPT.Mod 1102-1121 [OutHdFld]: the addresses written behind Shdptr, and nofhdfld (OPM.ExpHdPtrFld is TRUE, OPM.ExpHdProcFld is FALSE). *)
Fixpoint OutHdFld (fuel : nat) (t : ty) (n : name) (adr cnt : Z) : res (list Z * Z) :=
  match fuel with
  | O => Fuel
  | S fuel =>
      if is_record t then hd_flds (OutHdFld fuel) (fields t) adr cnt
      else if is_array t then
        let* (b, k) := elem fuel t 1 in
        if is_pointer b || is_record b then
          let* (a, c) := OutHdFld fuel b n adr cnt in
          if negb (cnt =? c) then
            let* (r, c') := hd_elems fuel (OutHdFld fuel b n) 1 k adr (size_of g b) c in Ok (a ++ r, c')
          else Ok (a, c)
        else Ok ([], cnt)
      else if is_pointer t || (if list_eq_dec Z.eq_dec n HdPtrName then true else false) then Ok ([adr], cnt + 1)
      else Ok ([], cnt)
  end.
Definition hdptrs (l : list Z) : list Z := concat (map (fun a => num 27 ++ num a) l).

Section OutStr.
(** [out] is OutStr (below) with less fuel. *)
Variable out : ty -> wst -> res (list Z * wst).
Variable fuel : nat.

(** OPT.Mod 1123-1133 [OutFlds] with visible = TRUE. *)
Fixpoint OutFlds (fs : list fld) (w : wst) : res (list Z * wst) :=
  match fs with
  | [] => Ok ([], w)
  | f :: fs =>
      let* (a, w1) :=
        match fvis f with
        | Internal => let* (l, c) := OutHdFld fuel (ftyp f) (fname f) (fadr f) (wcnt w) in Ok (hdptrs l, set_cnt w c)
        | v => let* (b, w1) := out (ftyp f) w in
               Ok (num (match v with ReadOnly => 26 | _ => 25 end) ++ b ++ OutName (fname f) ++ num (fadr f), w1)
        end in
      let* (r, w2) := OutFlds fs w1 in
      Ok (a ++ r, w2)
  end.
(** OPT.Mod 1135-1145 [OutSign]. *)
Fixpoint OutPars (ps : list param) (w : wst) : res (list Z * wst) :=
  match ps with
  | [] => Ok (num 18, w)
  | p :: ps =>
      let* (b, w1) := out (ptyp p) w in
      let* (r, w2) := OutPars ps w1 in
      Ok (num (if pvar p then 24 else 23) ++ b ++ num (padr p) ++ OutName (pname p) ++ r, w2)
  end.
Definition OutSign (s : sign) (w : wst) : res (list Z * wst) :=
  let* (a, w1) := out (sres s) w in
  let* (b, w2) := OutPars (spar s) w1 in
  Ok (a ++ b, w2).
(** OPT.Mod 1147-1168 [OutTProcs]; [nb] is the number of procedures of the base type (-1 without).  OPM.ExpHdTProc is FALSE. *)
Fixpoint OutTProcs (nb : Z) (ps : list tproc) (w : wst) : res (list Z * wst) :=
  match ps with
  | [] => Ok ([], w)
  | p :: ps =>
      let* (a, w1) :=
        match tvis p with
        | Internal => if tnum p <? nb then Trap 109 else Ok ([], w)
        | _ => let* (b, w1) := OutSign (tsig p) w in Ok (num 29 ++ b ++ OutName (tname p) ++ num (tnum p), w1)
        end in
      let* (r, w2) := OutTProcs nb ps w1 in
      Ok (a ++ r, w2)
  end.
(** OPT.Mod 1192-1209: the part behind the name. *)
Definition OutShape (s : shape) (size : Z) (w : wst) : res (list Z * wst) :=
  match s with
  | Pointer b => let* (r, w1) := out b w in Ok (num 36 ++ r, w1)
  | Proc sg => let* (r, w1) := OutSign sg w in Ok (num 40 ++ r, w1)
  | Array b n => let* (r, w1) := out b w in Ok (num 37 ++ r ++ num n, w1)
  | DynArr b => let* (r, w1) := out b w in Ok (num 38 ++ r, w1)
  | Rec base al n fs ps =>
      let* (a, w1) := out (match base with None => TB 10 | Some b => b end) w in
      let* (b, w2) := OutFlds fs (set_cnt w1 0) in
      if wcnt w2 >? MaxHdFld then Trap 223 else
      let* (c, w3) := OutTProcs (match base with Some (TS j) => match sshape (str_of g j) with Rec _ _ n _ _ => n | _ => -1 end | _ => -1 end) ps w2 in
      Ok (num 39 ++ a ++ num size ++ num al ++ num n ++ b ++ c ++ num 18, w3)
  end.
End OutStr.

(** OPT.Mod 1170-1210 [OutStr].  The messages about modified types (1182-1188) are not modelled; an error ends the export ([Trap]). *)
Fixpoint OutStr (fuel : nat) (t : ty) (w : wst) : res (list Z * wst) :=
  match fuel with
  | O => Fuel
  | S fuel =>
      match t with
      | TB f => Ok (num (- f), w)
      | TInt s => Ok (num (-4) ++ num s, w)
      | TSet s => Ok (num (-7) ++ num s, w)
      | TS i =>
          match wref w i with
          | Some r => Ok (num (- r), w)
          | None =>
              let s := str_of g i in
              if wnext w + 1 >=? maxStruct then Trap 228 else
              let* (m, w1) := OutMod (smno s) (mkw (upd (wref w) i (wnext w)) (wnext w + 1) (wloc w) (wnofm w) (wcnt w)) in
              let* (b, w2) := OutShape (OutStr fuel) fuel (sshape s) (ssize s) w1 in
              Ok (num 34 ++ m ++ OutName (sname s) ++ (if negb (sysflag s =? 0) then num 35 ++ num (sysflag s) else []) ++ b, w2)
          end
      end
  end.

(** OPT.Mod 1212-1227 [OutConstant]. *)
Definition OutConstant (c : const) : list Z :=
  match c with
  | CBool v => num 2 ++ [v mod 256]
  | CChar v => num 3 ++ [v mod 256]
  | CInt v s => num 4 ++ num v ++ num s
  | CSet v s => num 7 ++ num (wrap_s 64 v) ++ num s
  | CReal bs => num 5 ++ bs
  | CLReal bs => num 6 ++ bs
  | CString s => num 8 ++ OutName s
  | CNil => num 9
  end.
(** OPT.Mod 1245: obj^.typ^.strobj = obj. *)
Definition own_name (n : name) (t : ty) : bool :=
  match t with TS i => (smno (str_of g i) =? 0)%nat && (if list_eq_dec Z.eq_dec n (sname (str_of g i)) then true else false) | _ => false end.
(** OPT.Mod 1229-1267 [OutObj] for one object; internal ones are not written. *)
Definition OutOne (fuel : nat) (n : name) (o : obj) (w : wst) : res (list Z * wst) :=
  match ovis o with
  | Internal => Ok ([], w)
  | v =>
      match okind o with
      | KCon c => Ok (OutConstant c ++ OutName n, w)
      | KTyp t => let* (b, w1) := OutStr fuel t w in
                  if own_name n t then Ok (num 19 ++ b, w1) else Ok (num 20 ++ b ++ OutName n, w1)
      | KVar t => let* (b, w1) := OutStr fuel t w in Ok (num (match v with ReadOnly => 22 | _ => 21 end) ++ b ++ OutName n, w1)
      | KProc k s =>
          let* (b, w1) := OutSign (OutStr fuel) s w in
          match k with
          | PX => Ok (num 31 ++ b ++ OutName n, w1)
          | PI => Ok (num 32 ++ b ++ OutName n, w1)
          | PC code => Ok (num 33 ++ b ++ num (Zlength code) ++ code ++ OutName n, w1)
          end
      end
  end.
Fixpoint OutObjs (fuel : nat) (os : list (name * obj)) (w : wst) : res (list Z * wst) :=
  match os with
  | [] => Ok ([], w)
  | (n, o) :: os =>
      let* (a, w1) := OutOne fuel n o w in
      let* (b, w2) := OutObjs fuel os w1 in
      Ok (a ++ b, w2)
  end.
(** OPT.Mod 1269-1294 [Export]: the file behind its tag and version (OPM.Mod 648): name, modules to link, objects. *)
Definition w0 : wst := mkw (fun _ => None) 14 (upd (fun _ => None) 0%nat 0) 1 0.
Definition Export (fuel : nat) (links : list name) : res (list Z) :=
  let* (b, _) := OutObjs fuel (objects g) w0 in
  Ok (num 16 ++ OutName (nth 0 (modnames g) []) ++ concat (map OutName links) ++ [0] ++ b).
End Export.

(** ** The importing compiler *)

(** Objects linked by left and right, with the key they are found by. *)
Inductive tree (A : Type) := Leaf | Node (k : name) (a : A) (l r : tree A).
Arguments Leaf {A}.
Arguments Node {A} k a l r.
(** OPT.Mod 420-435 [FindImport] and 455-468 [FindField], the search in one tree. *)
Fixpoint find {A} (n : name) (t : tree A) : option A :=
  match t with
  | Leaf => None
  | Node k a l r => match ncmp n k with Lt => find n l | Gt => find n r | Eq => Some a end
  end.
(** OPT.Mod 691-713 [InsertImport]: the object goes to the place of [n] and gets the name [stored] (they differ for anonymous types, 864); if there is one already it is
    [old] and the tree stays. *)
Fixpoint InsertImport {A} (n stored : name) (a : A) (t : tree A) : tree A * option A :=
  match t with
  | Leaf => (Node stored a Leaf Leaf, None)
  | Node k b l r =>
      match ncmp n k with
      | Lt => let '(l', old) := InsertImport n stored a l in (Node k b l' r, old)
      | Gt => let '(r', old) := InsertImport n stored a r in (Node k b l r', old)
      | Eq => (t, Some b)
      end
  end.
(** obj^.vis := external (OPT.Mod 983) for the object found as [n]. *)
Fixpoint set_vis (n : name) (t : tree obj) : tree obj :=
  match t with
  | Leaf => Leaf
  | Node k a l r => match ncmp n k with Lt => Node k a (set_vis n l) r | Gt => Node k a l (set_vis n r) | Eq => Node k (mkobj External (okind a)) l r end
  end.

(** The members of a record: the list linked by [link] (fields only) and the tree (fields and procedures). *)
Inductive member := MF (f : fld) | MP (p : tproc).
(** OPT.Mod 74-87 StrDesc as it is filled in by InStruct.  [ibase] = None is NIL; [imno] is the number in GlbMod; [ipars] is the parameter list of a procedure type. *)
Record istr := mki { iform : Z; icomp : Z; imno : nat; iname : name; iflag : Z; inum : Z; isize : Z; ialign : Z; iext : Z; ibase : option ty;
  iflds : list fld; itree : tree member; ipars : list param }.
(** OPT.Mod 373-378 [NewStr] (Undef, Basic); the name and module are those of strobj and mno, set in 889-892. *)
Definition new_str (m : nat) (n : name) : istr := mki 0 1 m n 0 0 (-1) 0 0 (Some (TB 0)) [] Leaf [].

Definition set_form (x : istr) (f c : Z) := mki f c (imno x) (iname x) (iflag x) (inum x) (isize x) (ialign x) (iext x) (ibase x) (iflds x) (itree x) (ipars x).
Definition set_flag (x : istr) (v : Z) := mki (iform x) (icomp x) (imno x) (iname x) v (inum x) (isize x) (ialign x) (iext x) (ibase x) (iflds x) (itree x) (ipars x).
Definition set_num (x : istr) (v : Z) := mki (iform x) (icomp x) (imno x) (iname x) (iflag x) v (isize x) (ialign x) (iext x) (ibase x) (iflds x) (itree x) (ipars x).
Definition set_size (x : istr) (v : Z) := mki (iform x) (icomp x) (imno x) (iname x) (iflag x) (inum x) v (ialign x) (iext x) (ibase x) (iflds x) (itree x) (ipars x).
Definition set_align (x : istr) (v : Z) := mki (iform x) (icomp x) (imno x) (iname x) (iflag x) (inum x) (isize x) v (iext x) (ibase x) (iflds x) (itree x) (ipars x).
Definition set_ext (x : istr) (v : Z) := mki (iform x) (icomp x) (imno x) (iname x) (iflag x) (inum x) (isize x) (ialign x) v (ibase x) (iflds x) (itree x) (ipars x).
Definition set_base (x : istr) (v : option ty) := mki (iform x) (icomp x) (imno x) (iname x) (iflag x) (inum x) (isize x) (ialign x) (iext x) v (iflds x) (itree x) (ipars x).
Definition set_flds (x : istr) (v : list fld) := mki (iform x) (icomp x) (imno x) (iname x) (iflag x) (inum x) (isize x) (ialign x) (iext x) (ibase x) v (itree x) (ipars x).
Definition set_tree (x : istr) (v : tree member) := mki (iform x) (icomp x) (imno x) (iname x) (iflag x) (inum x) (isize x) (ialign x) (iext x) (ibase x) (iflds x) v (ipars x).
Definition set_pars (x : istr) (v : list param) := mki (iform x) (icomp x) (imno x) (iname x) (iflag x) (inum x) (isize x) (ialign x) (iext x) (ibase x) (iflds x) (itree x) v.

(** The rest of the file, eof, all types, GlbMod (names and trees), and impCtxt (OPT.Mod 188-196). *)
Record rd := mkr { inp : list Z; eof : bool; tys : list istr; mods : list (name * tree obj); nofr : Z; refs : Z -> option ty; nofm : Z; glb : Z -> option nat }.
Definition set_inp (r : rd) (l : list Z) (e : bool) := mkr l (eof r || e) (tys r) (mods r) (nofr r) (refs r) (nofm r) (glb r).
Definition set_tys (r : rd) (v : list istr) := mkr (inp r) (eof r) v (mods r) (nofr r) (refs r) (nofm r) (glb r).
Definition set_mods (r : rd) (v : list (name * tree obj)) := mkr (inp r) (eof r) (tys r) v (nofr r) (refs r) (nofm r) (glb r).
Definition set_ref (r : rd) (k : Z) (t : ty) := mkr (inp r) (eof r) (tys r) (mods r) (nofr r) (fun j => if j =? k then Some t else refs r j) (nofm r) (glb r).
Definition set_nofr (r : rd) (v : Z) := mkr (inp r) (eof r) (tys r) (mods r) v (refs r) (nofm r) (glb r).
Definition add_glb (r : rd) (m : nat) := mkr (inp r) (eof r) (tys r) (mods r) (nofr r) (refs r) (nofm r + 1) (fun j => if j =? nofm r then Some m else glb r j).

(** OPM.Mod 551-558: SymRInt reads into a LONGINT of 32 bits, SymRSet into a SET64, SymRCh one byte. *)
Definition SymRInt (r : rd) : res (Z * rd) := let '(v, l, e) := rnum (inp r) 0 0 in Ok (wrap_s 32 v, set_inp r l e).
Definition SymRSet (r : rd) : res (Z * rd) := let '(v, l, e) := rnum (inp r) 0 0 in Ok (wrap_u 64 v, set_inp r l e).
Definition SymRCh (r : rd) : res (Z * rd) := match inp r with [] => Ok (0, set_inp r [] true) | c :: l => Ok (c, set_inp r l false) end.
Definition SymRName (r : rd) : res (name * rd) := let '(n, l, e) := InName (inp r) in Ok (n, set_inp r l e).
(** Files.ReadReal, ReadLReal: n bytes. *)
Definition SymRBytes (n : nat) (r : rd) : res (list Z * rd) := Ok (firstn n (inp r), set_inp r (skipn n (inp r)) (length (inp r) <? n)%nat).

Fixpoint upd_nth {A} (l : list A) (i : nat) (v : A) : list A :=
  match l, i with [], _ => [] | _ :: l, O => v :: l | x :: l, S i => x :: upd_nth l i v end.
(** Apply a change to type number [i]. *)
Definition change (i : nat) (f : istr -> istr) (r : rd) : res rd :=
  match nth_error (tys r) i with Some x => Ok (set_tys r (upd_nth (tys r) i (f x))) | None => UB end.
Definition slot (r : rd) (i : nat) : res istr := match nth_error (tys r) i with Some x => Ok x | None => UB end.
(** Assignment to the VAR parameter of InStruct: the BaseTyp of type [i], or a local variable. *)
Definition assign (dst : option nat) (t : ty) (r : rd) : res rd :=
  match dst with Some i => change i (fun x => set_base x (Some t)) r | None => Ok r end.

(** OPT.Mod 237-250 [IntType], [SetType]; 841-848 [InTyp].  impCtxt.ref of a predefined form is its type (1390-1401). *)
Definition IntType (size : Z) : ty := if size <=? 1 then TInt 1 else if size <=? 2 then TInt 2 else if size <=? 4 then TInt 4 else TInt 8.
Definition SetType (size : Z) : ty := if size =? 4 then TSet 4 else TSet 8.
Definition InTyp (tag : Z) (r : rd) : res (ty * rd) :=
  if tag =? 4 then let* (s, r) := SymRInt r in Ok (IntType s, r)
  else if tag =? 7 then let* (s, r) := SymRInt r in Ok (SetType s, r)
  else if (0 <=? tag) && (tag <? 12) then Ok (TB tag, r)
  else match refs r tag with Some t => Ok (t, r) | None => UB end.

(** Position of a module name in GlbMod (OPT.Mod 732-733). *)
Fixpoint mod_index (n : name) (l : list (name * tree obj)) (i : nat) : option nat :=
  match l with [] => None | (m, _) :: l => if list_eq_dec Z.eq_dec n m then Some i else mod_index n l (S i) end.
(** OPT.Mod 723-748 [InMod]; [self] is the module being compiled. *)
Definition InMod (self : name) (r : rd) : res (nat * rd) :=
  let* (mn, r) := SymRInt r in
  if mn =? 0 then match glb r 0 with Some m => Ok (m, r) | None => UB end
  else if mn =? 16 then
    let* (n, r) := SymRName r in
    if list_eq_dec Z.eq_dec n self then Trap 154 else
    match mod_index n (mods r) 0 with
    | Some m => Ok (m, add_glb r m)
    | None =>
        let m := length (mods r) in
        if (m <? 64)%nat then Ok (m, add_glb (set_mods r (mods r ++ [(n, Leaf)])) m) else Trap 227
    end
  else match glb r (- mn) with Some m => Ok (m, r) | None => UB end.
(** OPT.Mod 750-762 [InLinks]: the names up to an empty one. *)
Fixpoint InLinks (fuel : nat) (r : rd) : res (list name * rd) :=
  match fuel with
  | O => Fuel
  | S fuel =>
      let* (n, r) := SymRName r in
      match n with [] => Ok ([], r) | _ => let* (ns, r) := InLinks fuel r in Ok (n :: ns, r) end
  end.

Definition AT : name := [64].
(** InsertImport(obj, GlbMod[mno].right, old). *)
Definition insert_mod (m : nat) (n stored : name) (o : obj) (r : rd) : res (option obj * rd) :=
  match nth_error (mods r) m with
  | Some (mn, t) => let '(t', old) := InsertImport n stored o t in Ok (old, set_mods r (upd_nth (mods r) m (mn, t')))
  | None => UB
  end.

(** OPT.Mod 272-308 [Align], [SizeAlignment], [BaseAlignment] on the importer's types; OPM.Alignment is 8. *)
Definition Align (adr base : Z) : Z :=
  if base =? 2 then adr + adr mod 2 else if base =? 4 then adr + (- adr) mod 4 else if base =? 8 then adr + (- adr) mod 8 else if base =? 16 then adr + (- adr) mod 16 else adr.
Definition SizeAlignment (size : Z) : Z := if size <? 8 then (if size <=? 1 then 1 else if size <=? 2 then 2 else if size <=? 4 then 4 else 8) else 8.
(** The size of a type of the importing compiler. *)
Definition isize_of (r : rd) (t : ty) : res Z := match t with TS i => let* x := slot r i in Ok (isize x) | TB f => Ok (basic_size f) | TInt s => Ok s | TSet s => Ok s end.
Definition icomp_of (r : rd) (t : ty) : res Z := match t with TS i => let* x := slot r i in Ok (icomp x) | _ => Ok 1 end.
Fixpoint BaseAlignment (fuel : nat) (t : ty) (r : rd) : res Z :=
  match fuel with
  | O => Fuel
  | S fuel =>
      match t with
      | TS i =>
          let* x := slot r i in
          if iform x =? 13 then
            if icomp x =? 4 then Ok (ialign x mod 65536)
            else match ibase x with Some b => BaseAlignment fuel b r | None => UB end
          else Ok (SizeAlignment (isize x))
      | _ => let* s := isize_of r t in Ok (SizeAlignment s)
      end
  end.
(** OPT.Mod 310-360 [TypSize].  The additions and products are not checked for overflow here (C42 is about that).  typ^.strobj is never NIL for imported types. *)
Fixpoint TypSize (fuel : nat) (t : ty) (r : rd) : res rd :=
  match fuel with
  | O => Fuel
  | S fuel =>
      match t with
      | TS i =>
          let* x := slot r i in
          if negb (isize x =? -1) then Ok r
          else if icomp x =? 4 then
            let* (off, base, r) :=
              match ibase x with
              | None => Ok (0, 1, r)
              | Some (TS j) => let* r := TypSize fuel (TS j) r in let* y := slot r j in Ok (isize y - iflag y / 256, ialign y, r)
              | Some _ => UB
              end in
            let* (off, base, fs, r) :=
              (fix flds (fs : list fld) (off base : Z) (r : rd) : res (Z * Z * list fld * rd) :=
                 match fs with
                 | [] => Ok (off, base, [], r)
                 | f :: fs =>
                     let* r := TypSize fuel (ftyp f) r in
                     let* s := isize_of r (ftyp f) in
                     let* al := BaseAlignment fuel (ftyp f) r in
                     let off := Align off al in
                     let* (o, b, fs', r) := flds fs (off + s) (if al >? base then al else base) r in
                     Ok (o, b, mkfld (fname f) (fvis f) (ftyp f) off :: fs', r)
                 end) (iflds x) off base r in
            let o := if off =? 0 then 1 else off in
            let o := Align o base in
            change i (fun x => set_flds (set_flag (set_align (set_size x o) base) (iflag x mod 256 + (o - off) * 256)) fs) r
          else if icomp x =? 2 then
            match ibase x with
            | Some b => let* r := TypSize fuel b r in let* s := isize_of r b in change i (fun x => set_size x (inum x * s)) r
            | None => UB
            end
          else if iform x =? 11 then
            let* r := change i (fun x => set_size x AddressSize) r in
            match ibase x with Some b => TypSize fuel b r | None => UB end
          else if iform x =? 12 then change i (fun x => set_size x AddressSize) r
          else if icomp x =? 3 then
            match ibase x with
            | Some b => let* r := TypSize fuel b r in let* s := isize_of r b in let* c := icomp_of r b in
                        change i (fun x => set_size x (if c =? 3 then s + 4 else 8)) r
            | None => UB
            end
          else Ok r
      | _ => Ok r
      end
  end.

(** OPT.Mod 922-924: the number of base types. *)
Fixpoint ext_level (fuel : nat) (t : option ty) (r : rd) : res Z :=
  match fuel with
  | O => Fuel
  | S fuel =>
      match t with
      | None => Ok 0
      | Some (TS i) => let* x := slot r i in let* n := ext_level fuel (ibase x) r in Ok (n + 1)
      | Some _ => UB
      end
  end.

Section InStruct.
(** [ins] is InStruct (below) with less fuel. *)
Variable ins : option nat -> rd -> res (ty * rd).
Variable fuel : nat.

(** OPT.Mod 790-802 [InSign]: the loop over the parameters. *)
Fixpoint InPars (k : nat) (r : rd) : res (list param * rd) :=
  match k with
  | O => Fuel
  | S k =>
      let* (tag, r) := SymRInt r in
      if tag =? 18 then Ok ([], r) else
      let* (t, r) := ins None r in
      let* (a, r) := SymRInt r in
      let* (n, r) := SymRName r in
      let* (ps, r) := InPars k r in
      Ok (mkpar (negb (tag =? 23)) t a n :: ps, r)
  end.
(** [dst]: the result type is assigned to the BaseTyp of a procedure type, or to an object. *)
Definition InSign (dst : option nat) (r : rd) : res (sign * rd) :=
  let* (t, r) := ins dst r in
  let* (ps, r) := InPars fuel r in
  Ok (mksig t ps, r).
(** OPT.Mod 804-820 [InFld]. *)
Definition InFld (tag : Z) (r : rd) : res (fld * rd) :=
  if tag <=? 26 then
    let* (t, r) := ins None r in
    let* (n, r) := SymRName r in
    let* (a, r) := SymRInt r in
    Ok (mkfld n (if tag =? 26 then ReadOnly else External) t a, r)
  else
    let* (a, r) := SymRInt r in
    Ok (mkfld (if tag =? 27 then HdPtrName else [64; 112; 114; 111; 99]) Internal (TB 0) a, r).
(** OPT.Mod 928-935: the fields of type [i]; [tag] is impCtxt.nextTag. *)
Fixpoint InFlds (k : nat) (i : nat) (tag : Z) (r : rd) : res (Z * rd) :=
  match k with
  | O => Fuel
  | S k =>
      if (tag >=? 25) && (tag <=? 28) then
        let* (f, r) := InFld tag r in
        let* r := change i (fun x => set_tree (set_flds x (iflds x ++ [f])) (fst (InsertImport (fname f) (fname f) (MF f) (itree x)))) r in
        let* (tag, r) := SymRInt r in
        InFlds k i tag r
      else Ok (tag, r)
  end.
(** OPT.Mod 822-838 [InTProc] and the loop 936-940. *)
Fixpoint InTProcs (k : nat) (i : nat) (tag : Z) (r : rd) : res rd :=
  match k with
  | O => Fuel
  | S k =>
      if tag =? 18 then Ok r else
      let* (p, r) :=
        if tag =? 29 then
          let* (s, r) := InSign None r in
          let* (n, r) := SymRName r in
          let* (a, r) := SymRInt r in
          Ok (mktp n External s a, r)
        else let* (a, r) := SymRInt r in Ok (mktp [64; 116; 112; 114; 111; 99] Internal (mksig (TB 0) []) a, r) in
      let* r := change i (fun x => set_tree x (fst (InsertImport (tname p) (tname p) (MP p) (itree x)))) r in
      let* (tag, r) := SymRInt r in
      InTProcs k i tag r
  end.
(** OPT.Mod 895-945: the part behind the name for type [i]; [tag] was read. *)
Definition InShape (i : nat) (tag : Z) (r : rd) : res rd :=
  if tag =? 36 then
    let* r := change i (fun x => set_num (set_size (set_form x 11 (icomp x)) AddressSize) 0) r in
    let* (_, r) := ins (Some i) r in Ok r
  else if tag =? 37 then
    let* r := change i (fun x => set_form x 13 2) r in
    let* (_, r) := ins (Some i) r in
    let* (n, r) := SymRInt r in
    let* r := change i (fun x => set_num x n) r in
    TypSize fuel (TS i) r
  else if tag =? 38 then
    let* r := change i (fun x => set_form x 13 3) r in
    let* (b, r) := ins (Some i) r in
    let* n := match b with TS j => let* y := slot r j in if icomp y =? 3 then Ok (inum y + 1) else Ok 0 | _ => Ok 0 end in
    let* r := change i (fun x => set_num x n) r in
    TypSize fuel (TS i) r
  else if tag =? 39 then
    let* r := change i (fun x => set_form x 13 4) r in
    let* (b, r) := ins (Some i) r in
    let* r := match b with TB f => if f =? 10 then change i (fun x => set_base x None) r else Ok r | _ => Ok r end in
    let* x := slot r i in
    let* e := ext_level fuel (ibase x) r in
    let* (s, r) := SymRInt r in
    let* (a, r) := SymRInt r in
    let* (n, r) := SymRInt r in
    let* r := change i (fun x => set_num (set_align (set_size (set_ext x e) s) a) n) r in
    let* (tag, r) := SymRInt r in
    let* (tag, r) := InFlds fuel i tag r in
    InTProcs fuel i tag r
  else if tag =? 40 then
    let* r := change i (fun x => set_size (set_form x 12 (icomp x)) AddressSize) r in
    let* (s, r) := InSign (Some i) r in
    change i (fun x => set_pars x (spar s)) r
  else UB.
End InStruct.

(** OPT.Mod 850-974 [InStruct] for an import that is not the module's own old symbol file (impCtxt.self = FALSE).  Fingerprints, which only serve to report
    inconsistent imports, are not modelled (946-972; see C45).  An unknown tag is [UB]. *)
Fixpoint InStruct (fuel : nat) (self : name) (dst : option nat) (r : rd) : res (ty * rd) :=
  match fuel with
  | O => Fuel
  | S fuel =>
      let* (tag, r) := SymRInt r in
      if negb (tag =? 34) then
        let* (t, r) := InTyp (- tag) r in
        let* r := assign dst t r in
        Ok (t, r)
      else
        let ref := nofr r in
        let r := set_nofr r (ref + 1) in
        let* (m, r) := InMod self r in
        let* (n, r) := SymRName r in
        let new := length (tys r) in
        let* (old, r) := insert_mod m (match n with [] => AT | _ => n end) n (mkobj Internal (KTyp (TS new))) r in
        let* (i, r) :=
          match old with
          | None => Ok (new, set_tys r (tys r ++ [new_str m n]))
          | Some o =>
              match okind o with
              | KTyp (TS i) => let* r := change i (fun x => set_pars (set_tree (set_flds (set_flag x 0) []) Leaf) []) r in Ok (i, r)
              | _ => UB
              end
          end in
        let* r := assign dst (TS i) r in
        let r := set_ref r ref (TS i) in
        let* (tag, r) := SymRInt r in
        let* (tag, r) :=
          if tag =? 35 then
            let* (f, r) := SymRInt r in
            let* r := change i (fun x => set_flag x (wrap_s 16 f)) r in
            SymRInt r
          else Ok (tag, r) in
        let* r := InShape (InStruct fuel self) fuel i tag r in
        Ok (TS i, r)
  end.

(** OPT.Mod 764-786 [InConstant] and the type (991). *)
Definition InConstant (tag : Z) (r : rd) : res (const * rd) :=
  if tag =? 2 then let* (c, r) := SymRCh r in Ok (CBool c, r)
  else if tag =? 3 then let* (c, r) := SymRCh r in Ok (CChar c, r)
  else if tag =? 4 then
    let* (v, r) := SymRInt r in
    let* (s, r) := SymRInt r in
    Ok (CInt v (match IntType s with TInt s => s | _ => 0 end), r)
  else if tag =? 7 then
    let* (v, r) := SymRSet r in
    let* (s, r) := SymRInt r in
    Ok (CSet v (match SetType s with TSet s => s | _ => 0 end), r)
  else if tag =? 5 then let* (b, r) := SymRBytes 4 r in Ok (CReal b, r)
  else if tag =? 6 then let* (b, r) := SymRBytes 8 r in Ok (CLReal b, r)
  else if tag =? 8 then let* (s, r) := SymRName r in Ok (CString s, r)
  else if tag =? 9 then Ok (CNil, r)
  else UB.
(** OPT.Mod 976-1041 [InObj]; [m] is the number of the imported module. *)
Definition InObj (fuel : nat) (self : name) (m : nat) (tag : Z) (r : rd) : res rd :=
  if tag =? 19 then
    let* (t, r) := InStruct fuel self None r in
    match t with
    | TS i =>
        let* x := slot r i in
        match nth_error (mods r) (imno x) with
        | Some (mn, tr) => Ok (set_mods r (upd_nth (mods r) (imno x) (mn, set_vis (iname x) tr)))
        | None => UB
        end
    | _ => UB
    end
  else
    let* (k, r) :=
      if tag <=? 11 then let* (c, r) := InConstant tag r in Ok (mkobj External (KCon c), r)
      else if tag >=? 31 then
        let* (s, r) := InSign (InStruct fuel self) fuel None r in
        if tag =? 31 then Ok (mkobj External (KProc PX s), r)
        else if tag =? 32 then Ok (mkobj External (KProc PI s), r)
        else if tag =? 33 then
          let* (n, r) := SymRInt r in
          let* (code, r) := SymRBytes (Z.to_nat (wrap_s 16 n)) r in
          Ok (mkobj External (KProc (PC code) s), r)
        else UB
      else if tag =? 20 then let* (t, r) := InStruct fuel self None r in Ok (mkobj External (KTyp t), r)
      else let* (t, r) := InStruct fuel self None r in Ok (mkobj (if tag =? 22 then ReadOnly else External) (KVar t), r) in
    let* (n, r) := SymRName r in
    let* (_, r) := insert_mod m n n k r in
    Ok r.
(** OPT.Mod 1055-1058: the objects up to the end of the file; [tag] is impCtxt.nextTag. *)
Fixpoint InObjs (fuel k : nat) (self : name) (m : nat) (tag : Z) (r : rd) : res rd :=
  match k with
  | O => Fuel
  | S k =>
      if eof r then Ok r else
      let* r := InObj fuel self m tag r in
      let* (tag, r) := SymRInt r in
      InObjs fuel k self m tag r
  end.
(** OPT.Mod 1043-1071 [Import] of another module, behind the tag and version of the file. *)
Definition Import (fuel : nat) (self : name) (file : list Z) (ts : list istr) (ms : list (name * tree obj)) : res (nat * list name * rd) :=
  let r := mkr file false ts ms 14 (fun _ => None) 0 (fun _ => None) in
  let* (m, r) := InMod self r in
  let* (links, r) := InLinks fuel r in
  let* (tag, r) := SymRInt r in
  let* r := InObjs fuel fuel self m tag r in
  Ok (m, links, r).
