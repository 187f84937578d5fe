(** Pointer offsets the back end writes into type descriptors, computed from the types of the compiler (OPC.Mod 260-312). *)
From Verif Require Import Base SymModel SymBytes SymSpec.

(** The parts of a StrDesc used: form, comp, sysflag, n, size, BaseTyp and the fields behind link. *)
Record tinfo := mkti { t_form : Z; t_comp : Z; t_flag : Z; t_n : Z; t_size : Z; t_base : option ty; t_flds : list fld }.
Definition basic_info (t : ty) : tinfo :=
  match t with TB f => mkti f 1 0 0 (basic_size f) None [] | TInt s => mkti 4 1 0 0 s None [] | TSet s => mkti 7 1 0 0 s None [] | TS _ => mkti 0 1 0 0 0 None [] end.
(** In the compiler that compiles the module, *)
Definition shape_base (s : shape) : option ty := match s with Pointer b => Some b | Proc s => Some (sres s) | Array b _ => Some b | DynArr b => Some b | Rec b _ _ _ _ => b end.
Definition info_g (g : graph) (t : ty) : tinfo :=
  match t with
  | TS i => let s := str_of g i in
            mkti (form_of (sshape s)) (comp_of (sshape s)) (sysflag s) (match sshape s with Array _ n => n | Rec _ _ n _ _ => n | _ => 0 end) (ssize s) (shape_base (sshape s)) (fields g t)
  | _ => basic_info t
  end.
(** and in one that has imported it. *)
Definition info_c (ts : list istr) (t : ty) : tinfo :=
  match t with
  | TS i => match nth_error ts i with Some x => mkti (iform x) (icomp x) (iflag x) (inum x) (isize x) (ibase x) (iflds x) | None => basic_info t end
  | _ => basic_info t
  end.

Section Put.
Variable info : ty -> tinfo.
(** OPC.Mod 279, 304: all dimensions of an array.  The products and sums below are in 32 bits in the compiler; they count pointers and bytes of a type whose size has been
    checked (C42), so they are exact. *)
Fixpoint dims (fuel : nat) (b : ty) (n : Z) : res (ty * Z) :=
  match fuel with
  | O => Fuel
  | S fuel => if t_comp (info b) =? 2 then match t_base (info b) with Some c => dims fuel c (t_n (info b) * n) | None => UB end else Ok (b, n)
  end.
Definition is_hd (f : fld) : bool := if list_eq_dec Z.eq_dec (fname f) HdPtrName then true else false.
(** OPC.Mod 269-273. *)
Fixpoint count_flds (one : ty -> res Z) (fs : list fld) : res Z :=
  match fs with
  | [] => Ok 0
  | f :: fs => let* a := if is_hd f then Ok 1 else one (ftyp f) in let* b := count_flds one fs in Ok (a + b)
  end.
(** OPC.Mod 260-283 [NofPtrs]. *)
Fixpoint NofPtrs (fuel : nat) (t : ty) : res Z :=
  match fuel with
  | O => Fuel
  | S fuel =>
      let x := info t in
      if (t_form x =? 11) && (t_flag x =? 0) then Ok 1
      else if (t_comp x =? 4) && (t_flag x mod 256 =? 0) then
        let* n := match t_base x with Some b => NofPtrs fuel b | None => Ok 0 end in
        let* k := count_flds (NofPtrs fuel) (t_flds x) in
        Ok (n + k)
      else if t_comp x =? 2 then
        match t_base x with
        | Some b => let* (b, n) := dims fuel b (t_n x) in let* k := NofPtrs fuel b in Ok (k * n)
        | None => UB
        end
      else Ok 0
  end.
(** OPC.Mod 296-302, 306. *)
Fixpoint put_flds (one : ty -> Z -> res (list Z)) (fs : list fld) (adr : Z) : res (list Z) :=
  match fs with
  | [] => Ok []
  | f :: fs => let* a := if is_hd f then Ok [adr + fadr f] else one (ftyp f) (adr + fadr f) in let* b := put_flds one fs adr in Ok (a ++ b)
  end.
Fixpoint put_elems (k : nat) (one : Z -> res (list Z)) (adr size i : Z) : res (list Z) :=
  match k with
  | O => Ok []
  | S k => let* a := one (adr + i * size) in let* b := put_elems k one adr size (i + 1) in Ok (a ++ b)
  end.
(** OPC.Mod 285-309 [PutPtrOffsets]: the offsets written. *)
Fixpoint PutPtrOffsets (fuel : nat) (t : ty) (adr : Z) : res (list Z) :=
  match fuel with
  | O => Fuel
  | S fuel =>
      let x := info t in
      if (t_form x =? 11) && (t_flag x =? 0) then Ok [adr]
      else if (t_comp x =? 4) && (t_flag x mod 256 =? 0) then
        let* a := match t_base x with Some b => PutPtrOffsets fuel b adr | None => Ok [] end in
        let* l := put_flds (PutPtrOffsets fuel) (t_flds x) adr in
        Ok (a ++ l)
      else if t_comp x =? 2 then
        match t_base x with
        | Some b =>
            let* (b, n) := dims fuel b (t_n x) in
            let* k := NofPtrs fuel b in
            if k >? 0 then put_elems (Z.to_nat n) (PutPtrOffsets fuel b) adr (t_size (info b)) 0 else Ok []
        | None => UB
        end
      else Ok []
  end.
End Put.

(** ** Specification

    A type whose hidden parts are described completely in the symbol file: pointers in it are traced, records in it are not extensions and have no flags. *)
Section Plain.
Variable g : graph.
Inductive plain : ty -> Prop :=
| P_basic t : (forall i, t <> TS i) -> plain t
| P_pointer i b : sshape (str_of g i) = Pointer b -> sysflag (str_of g i) = 0 -> plain (TS i)
| P_proc i s : sshape (str_of g i) = Proc s -> plain (TS i)
| P_array i b n : sshape (str_of g i) = Array b n -> plain b -> plain (TS i)
| P_open i b : sshape (str_of g i) = DynArr b -> plain (TS i)
| P_rec i al n fs ps : sshape (str_of g i) = Rec None al n fs ps -> sysflag (str_of g i) mod 256 = 0 -> (forall f, In f fs -> plain_fld f) -> plain (TS i)
with plain_fld : fld -> Prop :=
| P_named f : fname f <> HdPtrName -> plain (ftyp f) -> plain_fld f
| P_hdptr f : fname f = HdPtrName -> ftyp f = TB 0 -> plain_fld f.
End Plain.
Definition plain_hidden (g : graph) : Prop := forall i base al n fs ps f, sshape (str_of g i) = Rec base al n fs ps -> In f fs -> fvis f = Internal -> plain_fld g f.
