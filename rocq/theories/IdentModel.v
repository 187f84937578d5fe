(** The names of Oberon objects in the C files. *)
From Coq Require Import String Ascii.
From Verif Require Import Base.

(** Names are lists of character codes, without 0X. *)
Fixpoint codes (s : string) : list Z := match s with EmptyString => [] | String c s => Z.of_N (N_of_ascii c) :: codes s end.
Fixpoint same (a b : list Z) : bool := match a, b with [], [] => true | x :: a, y :: b => (x =? y) && same a b | _, _ => false end.
(** OPC.Mod 97-102 [PerfectHash]: over the first five characters; h is an INTEGER of 16 bits. *)
Fixpoint hash_loop (n : nat) (s : list Z) (h : Z) : Z :=
  match n, s with
  | S n, c :: s => hash_loop n s (wrap_s 16 (3 * h + c))
  | _, _ => h
  end.
Definition PerfectHash (s : list Z) : Z := hash_loop 5 s 0 mod 105.
(** OPC.Mod 1272-1318: the words entered, in this order. *)
Definition words : list string := [
  "ADDRESS"; "INT16"; "INT32"; "INT64"; "INT8"; "UINT16"; "UINT32"; "UINT64"; "UINT8";
  "asm"; "auto"; "break"; "case"; "char"; "const"; "continue"; "default"; "do"; "double"; "else"; "enum"; "extern"; "export"; "float"; "for"; "fortran"; "goto"; "if"; "import"; "int"; "long"; "register"; "return";
  "short"; "signed"; "sizeof"; "size_t"; "static"; "struct"; "switch"; "typedef"; "union"; "unsigned"; "void"; "volatile"; "while"]%string.
(** OPC.Mod 1262-1271 [InitKeywords], [Enter]: hashtab and keytab (with n = its length). *)
Fixpoint enter_all (ws : list string) (hashtab : list Z) (keytab : list (list Z)) : list Z * list (list Z) :=
  match ws with
  | [] => (hashtab, keytab)
  | w :: ws => enter_all ws (set_nth (Z.to_nat (PerfectHash (codes w))) (Z.of_nat (List.length keytab)) hashtab) (keytab ++ [codes w])
  end.
Definition tables : list Z * list (list Z) := Eval vm_compute in enter_all words (repeat (-1) 105) [].
Definition hashtab : list Z := fst tables.
Definition keytab : list (list Z) := snd tables.
(** OPC.Mod 109-113: names of fields, parameters and local objects. *)
Definition local_name (name : list Z) : list Z :=
  let h := PerfectHash name in
  let k := nth (Z.to_nat h) hashtab (-1) in
  if k >=? 0 then (if same (nth (Z.to_nat k) keytab []) name then name ++ [95] else name) else name.
(** OPV.Mod 85-95 [Stamp], for a stamp j > 0: at most 25 characters, two underscores and the number.  n has 10 elements. *)
Fixpoint stamp_digits (fuel : nat) (j : Z) (ds : list Z) : list Z :=
  match fuel with
  | O => ds
  | S f => let ds := (j mod 10 + 48) :: ds in let j := j / 10 in if j =? 0 then ds else stamp_digits f j ds
  end.
Definition Stamp (name : list Z) (j : Z) : list Z := firstn 25 name ++ [95; 95] ++ stamp_digits 10 j [].
(** Objects: a field, parameter or local variable; a local type or procedure, with its stamp (OPV.Mod 112); the limit of a FOR loop, with its stamp (OPV.Mod 102); a global
    object of a module; a type-bound procedure of a global or a local type. *)
Inductive object :=
| Local (name : list Z)
| LocalStamped (name : list Z) (stamp : Z)
| Limit (stamp : Z)
| Global (mod_ name : list Z)
| Method (mod_ typ name : list Z)
| LocalMethod (typ : list Z) (stamp : Z) (name : list Z).
(** OPC.Mod 104-135 [Ident]; predefined types are left out. *)
Definition Ident (o : object) : list Z :=
  match o with
  | Local name => local_name name
  | LocalStamped name j => local_name (Stamp name j)
  | Limit j => local_name (Stamp (95 :: codes "for") j)
  | Global m name => m ++ [95] ++ name
  | Method m t name => (m ++ [95] ++ t) ++ [95] ++ name
  | LocalMethod t j name => local_name (Stamp t j) ++ [95] ++ name
  end.
