(** Enumeration of the pointers in global variables: src/compiler/OPC.Mod 872-905 [GenEnumPtrs], 921-925; src/runtime/SYSTEM.c 70-90; Heap.Mod MarkAll in GC.
    Types with their layout and pointer tables are those of LayModel (C42, C43). *)
From Verif Require Import Base LayModel.

Section Enum.
Variable AddressSize : Z.
(** A global variable: its address in the C program, its type, and the address of the descriptor of the record type that occurs in it (Andent(typ)__typ). *)
Record var := { vadr : Z; vtyp : styp; vdesc : Z }.
(** The statements of the generated procedure EnumPtrs. *)
Inductive stmt := CallP (adr : Z) | EnumP (adr n : Z) | EnumR (adr typ size n : Z).
(** OPC.Mod 889-890: the lengths of nested arrays are multiplied in 32 bits. *)
Fixpoint dims (n : Z) (s : styp) : res (Z * styp) :=
  match s with SArr m e _ => let* n := chk 32 (n * m) in dims n e | _ => Ok (n, s) end.
(** OPC.Mod 877-899: one variable. *)
Definition gen_var (v : var) : res (list stmt) :=
  if NofPtrs (vtyp v) >? 0 then
    match vtyp v with
    | SPtr _ _ => Ok [CallP (vadr v)]
    | SRec _ _ size _ _ => Ok [EnumR (vadr v) (vdesc v) size 1]
    | SArr n e _ =>
        let* r := dims n e in
        let '(n, typ) := r in
        Ok (match typ with
            | SPtr _ _ => [EnumP (vadr v) n]
            | SRec _ _ size _ _ => [EnumR (vadr v) (vdesc v) size n]
            | _ => []
            end)
    | _ => Ok []
    end
  else Ok [].
(** OPC.Mod 872-905: the statements of EnumPtrs. *)
Fixpoint GenEnumPtrs (vars : list var) : res (list stmt) :=
  match vars with
  | [] => Ok []
  | v :: vars => let* a := gen_var v in let* b := GenEnumPtrs vars in Ok (a ++ b)
  end.
(** OPC.Mod 925: a module without such statements is registered without a procedure (GlbPtrs). *)
Definition RegMod (ss : list stmt) : option (list stmt) := match ss with [] => None | _ => Some ss end.

(** Memory in words; reading elsewhere is undefined.  The calls of P are collected as the list of their arguments. *)
Definition memory := Z -> option Z.
Definition rd (m : memory) (a : Z) : res Z := match m a with Some v => Ok v | None => UB end.
(** SYSTEM.c 70-77. *)
Fixpoint ENUMP (fuel : nat) (m : memory) (adr n : Z) : res (list Z) :=
  match fuel with
  | O => Fuel
  | S fuel =>
    if n >? 0 then let* v := rd m adr in let* l := ENUMP fuel m (adr + AddressSize) (n - 1) in Ok (v :: l)
    else Ok []
  end.
(** SYSTEM.c 84-86: the offsets of one record. *)
Fixpoint offs (fuel : nat) (m : memory) (adr t : Z) : res (list Z) :=
  match fuel with
  | O => Fuel
  | S fuel =>
    let* off := rd m t in
    if off >=? 0 then let* v := rd m (adr + off) in let* l := offs fuel m adr (t + AddressSize) in Ok (v :: l)
    else Ok []
  end.
(** SYSTEM.c 79-90. *)
Fixpoint enumr (fuel : nat) (m : memory) (adr typ size n : Z) : res (list Z) :=
  match fuel with
  | O => Fuel
  | S fuel =>
    if n >? 0 then let* a := offs fuel m adr typ in let* b := enumr fuel m (adr + size) typ size (n - 1) in Ok (a ++ b)
    else Ok []
  end.
Definition ENUMR (fuel : nat) (m : memory) (adr typ size n : Z) : res (list Z) := enumr fuel m adr (typ + AddressSize) size n.
Definition exec (fuel : nat) (m : memory) (s : stmt) : res (list Z) :=
  match s with
  | CallP adr => let* v := rd m adr in Ok [v]
  | EnumP adr n => ENUMP fuel m adr n
  | EnumR adr typ size n => ENUMR fuel m adr typ size n
  end.
Fixpoint EnumPtrs (fuel : nat) (m : memory) (ss : list stmt) : res (list Z) :=
  match ss with
  | [] => Ok []
  | s :: ss => let* a := exec fuel m s in let* b := EnumPtrs fuel m ss in Ok (a ++ b)
  end.
(** Heap.Mod 560-566 [GC]: all modules. *)
Fixpoint MarkAll (fuel : nat) (m : memory) (mods : list (option (list stmt))) : res (list Z) :=
  match mods with
  | [] => Ok []
  | None :: mods => MarkAll fuel m mods
  | Some ss :: mods => let* a := EnumPtrs fuel m ss in let* b := MarkAll fuel m mods in Ok (a ++ b)
  end.
End Enum.
