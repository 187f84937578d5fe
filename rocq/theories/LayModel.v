(** Layout of records: by the compiler (OPT.TypSize), in the C text (OPC.FieldList), and the table of pointer offsets. *)
From Verif Require Import Base.

Section Layout.
(** OPM.Mod 92, 292: the largest alignment of a scalar type (4 or 8), and the size of an address. *)
Variables (Alignment AddressSize : Z).

(** Types as declared: basic types of a size; pointers (traced: sysflag = 0); procedure types; arrays; records (traced: sysflag MOD 100H = 0).  Open arrays cannot be fields.
    The fields of a record are those of the preceding field list and one more ([FAdd], with its visibility), none, or those of the extended record ([FExt], with the sysflag of that record). *)
Inductive typ :=
| TBasic (size : Z)
| TPtr (traced : bool)
| TProc
| TArr (n : Z) (elem : typ)
| TRec (traced : bool) (fs : fields)
with fields :=
| FNone
| FAdd (fs : fields) (vis : bool) (t : typ)
| FExt (traced : bool) (base : fields).
(** Types after TypSize: with typ^.size, typ^.align MOD 10000H, typ^.sysflag DIV 100H (the trailing gap) and fld^.adr. *)
Inductive styp :=
| SBasic (size : Z)
| SPtr (traced : bool) (size : Z)
| SProc (size : Z)
| SArr (n : Z) (elem : styp) (size : Z)
| SRec (traced : bool) (fs : sfields) (size align gap : Z)
with sfields :=
| SNone
| SAdd (fs : sfields) (vis : bool) (t : styp) (adr : Z)
| SExt (traced : bool) (base : sfields) (size align gap : Z).
Definition size_of (s : styp) : Z :=
  match s with SBasic z => z | SPtr _ z => z | SProc z => z | SArr _ _ z => z | SRec _ _ z _ _ => z end.

(** OPT.Mod 272-281 [Align]; all is 32-bit arithmetic. *)
Definition Align (adr base : Z) : Z :=
  if base =? 2 then adr + adr mod 2
  else if base =? 4 then adr + (- adr) mod 4
  else if base =? 8 then adr + (- adr) mod 8
  else if base =? 16 then adr + (- adr) mod 16
  else adr.
(** OPT.Mod 283-293 [SizeAlignment]: the loop, with enough steps for the sizes below 16. *)
Fixpoint size_align (fuel : nat) (alignment size : Z) : Z :=
  match fuel with
  | O => alignment
  | S f => if alignment <? size then size_align f (alignment * 2) size else alignment
  end.
Definition SizeAlignment (size : Z) : Z := if size <? Alignment then size_align 4 1 size else Alignment.
(** OPT.Mod 295-308 [BaseAlignment]. *)
Fixpoint BaseAlignment (s : styp) : Z :=
  match s with
  | SRec _ _ _ align _ => align
  | SArr _ elem _ => BaseAlignment elem
  | _ => SizeAlignment (size_of s)
  end.
(** OPT.Mod 332-342: the end of the record: size, alignment and trailing gap.  The gap passes through the upper byte of the 16-bit sysflag. *)
Definition finish (off0 base : Z) : res (Z * Z * Z) :=
  let offset := if off0 =? 0 then 1 else off0 in
  let* offset := chk 32 (Align offset base) in
  Ok (offset, base, wrap_s 16 ((offset - off0) * 256) / 256).
(** OPP.Mod 156-161: the length of an array type from the constant in its declaration; None: error 63.  MaxIndex is the largest address (OPM.Mod 329), but the length is stored in 32 bits (OPM.Mod 171 [Longint]). *)
Definition array_length (n : Z) : option Z :=
  if (n <=? 0) || (n >? 2 ^ (8 * AddressSize - 1) - 1) then None else Some (wrap_s 32 n).
(** OPT.Mod 310-360 [TypSize].  [TypFields] is its treatment of the fields: the fields with their addresses, offset and base. *)
Fixpoint TypSize (t : typ) : res styp :=
  match t with
  | TBasic z => Ok (SBasic z)
  | TPtr tr => Ok (SPtr tr AddressSize)
  | TProc => Ok (SProc AddressSize)
  | TArr n e => let* e := TypSize e in let* z := chk 32 (n * size_of e) in Ok (SArr n e z)
  | TRec tr fs =>
      let* r := TypFields fs in
      let '(fs, off0, base) := r in
      let* q := finish off0 base in
      let '(size, align, gap) := q in
      Ok (SRec tr fs size align gap)
  end
with TypFields (fs : fields) : res (sfields * Z * Z) :=
  match fs with
  | FNone => Ok (SNone, 0, 1)
  | FAdd fs vis t =>
      let* r := TypFields fs in
      let '(fs, offset, base) := r in
      let* t := TypSize t in
      let fbase := BaseAlignment t in
      let* adr := chk 32 (Align offset fbase) in
      let* offset := chk 32 (adr + size_of t) in
      Ok (SAdd fs vis t adr, offset, if fbase >? base then fbase else base)
  | FExt tr fs =>
      let* r := TypFields fs in
      let '(fs, off0, base) := r in
      let* q := finish off0 base in
      let '(size, align, gap) := q in
      Ok (SExt tr fs size align gap, size - gap, align)
  end.

(** C types as far as their layout matters.  The members of a struct are those before and one more; [pad]: a member named _prvt#. *)
Inductive cty := CScalar (size : Z) | CArr (n : Z) (elem : cty) | CStruct (ms : cmems)
with cmems := MNone | MAdd (ms : cmems) (pad : bool) (c : cty).
(** The C ABI: scalars are aligned to their size up to the largest alignment; a member starts at the next multiple of its alignment; a struct has the largest alignment of its members and its size is a multiple of that. *)
Definition round_up (x a : Z) : Z := x + (- x) mod a.
Fixpoint calign (c : cty) : Z :=
  match c with CScalar z => Z.min z Alignment | CArr _ e => calign e | CStruct ms => malign ms end
with malign (ms : cmems) : Z :=
  match ms with MNone => 1 | MAdd ms _ c => Z.max (malign ms) (calign c) end.
Fixpoint csize (c : cty) : Z :=
  match c with CScalar z => z | CArr n e => n * csize e | CStruct ms => round_up (mend ms) (malign ms) end
with mend (ms : cmems) : Z :=
  match ms with MNone => 0 | MAdd ms _ c => round_up (mend ms) (calign c) + csize c end.
(** The offsets of the members that are not padding. *)
Fixpoint moffsets (ms : cmems) : list Z :=
  match ms with
  | MNone => []
  | MAdd ms pad c => moffsets ms ++ (if pad then [] else [round_up (mend ms) (calign c)])
  end.

(** OPC.Mod 560-583 [FillGap]: the members written, and curAlign. *)
Definition FillGap (gap off align : Z) (ms : cmems) (curAlign : Z) : cmems * Z :=
  let adr := Align off align in
  let '(gap, ms, curAlign) :=
    if (curAlign <? align) && (gap - (adr - off) >=? align) then (gap - ((adr - off) + align), MAdd ms true (CScalar align), align)
    else (gap, ms, curAlign) in
  if gap >? 0 then (MAdd ms true (CArr gap (CScalar 1)), curAlign) else (ms, curAlign).
(** OPC.Mod 585-631 [FieldList] without its last part; [align] is that of the record or base record being listed.  Which fields are left out as private is the [vis] of the field: in the
    module's own C file all are written, in the header and in clients the exported ones.  Simplified: fields of equal type are declared one by one.
    Members, off and curAlign.  [declare] is the C type written for a type (OPC.Mod 216-256 [DeclareBase], [DeclareObj]): a named struct has the members written by its own declaration. *)
Fixpoint declare (s : styp) : cty :=
  match s with
  | SArr n e _ => CArr n (declare e)
  | SRec _ fs size align gap =>
      let '(ms, off, curAlign) := FieldList fs align in
      let adr := size - gap in
      let gap := if adr =? 0 then 1 else adr - off in
      CStruct (if gap >? 0 then fst (FillGap gap off align ms curAlign) else ms)
  | _ => CScalar (size_of s)
  end
with FieldList (fs : sfields) (align : Z) : cmems * Z * Z :=
  match fs with
  | SNone => (MNone, 0, 1)
  | SExt _ base _ balign _ => FieldList base balign
  | SAdd fs false _ _ => FieldList fs align
  | SAdd fs true t fadr =>
      let '(ms, off, curAlign) := FieldList fs align in
      let fldAlign := BaseAlignment t in
      let adr := Align off fldAlign in
      let gap := fadr - adr in
      let curAlign := if fldAlign >? curAlign then fldAlign else curAlign in
      let '(ms, curAlign) := if gap >? 0 then FillGap gap off align ms curAlign else (ms, curAlign) in
      (MAdd ms false (declare t), fadr + size_of t, curAlign)
  end.

(** OPC.Mod 259-280 [NofPtrs].  The inner loop over nested arrays multiplies their lengths. *)
Fixpoint flatten (n : Z) (s : styp) : Z * styp :=
  match s with SArr m e _ => flatten (m * n) e | _ => (n, s) end.
Fixpoint NofPtrs (s : styp) : Z :=
  match s with
  | SPtr tr _ => if tr then 1 else 0
  | SRec tr fs _ _ _ => if tr then NofPtrsF fs else 0
  | SArr n e _ => (fix arr (n : Z) (s : styp) : Z := match s with SArr m e _ => arr (m * n) e | _ => NofPtrs s * n end) n e
  | _ => 0
  end
with NofPtrsF (fs : sfields) : Z :=
  match fs with
  | SNone => 0
  | SAdd fs _ t _ => NofPtrsF fs + NofPtrs t
  | SExt tr base _ _ _ => if tr then NofPtrsF base else 0
  end.
(** OPC.Mod 282-307 [PutPtrOffsets]: the numbers written.  Hidden pointers of imported records (OPM.HdPtrName) are fields of pointer type here. *)
Fixpoint repeat_at (k : nat) (i : Z) (f : Z -> list Z) : list Z :=
  match k with O => [] | S k => f i ++ repeat_at k (i + 1) f end.
Fixpoint PutPtrOffsets (s : styp) (adr : Z) : list Z :=
  match s with
  | SPtr tr _ => if tr then [adr] else []
  | SRec tr fs _ _ _ => if tr then PutPtrOffsetsF fs adr else []
  | SArr n e _ => (fix arr (n : Z) (s : styp) : list Z :=
        match s with
        | SArr m e _ => arr (m * n) e
        | _ => if NofPtrs s >? 0 then repeat_at (Z.to_nat n) 0 (fun i => PutPtrOffsets s (adr + i * size_of s)) else []
        end) n e
  | _ => []
  end
with PutPtrOffsetsF (fs : sfields) (adr : Z) : list Z :=
  match fs with
  | SNone => []
  | SAdd fs _ t fadr => PutPtrOffsetsF fs adr ++ PutPtrOffsets t (adr + fadr)
  | SExt tr base _ _ _ => if tr then PutPtrOffsetsF base adr else []
  end.
(** OPC.Mod 534-547 [TDescDecl]: the table in the type descriptor ends with a sentinel. *)
Definition TDesc (s : styp) : list Z := let l := PutPtrOffsets s 0 in l ++ [- (Z.of_nat (length l) + 1) * AddressSize].
End Layout.
