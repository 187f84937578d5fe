(** Numerals: white space, perhaps a sign, at least one digit; then the end of the string. *)
From Verif Require Import Base.
Definition white (c : Z) : Prop := c = 32 \/ 9 <= c <= 13.
Definition digit (c : Z) : Prop := 48 <= c <= 57.
Definition sign (sg : list Z) : Prop := sg = [] \/ sg = [43] \/ sg = [45].
Definition number (ds : list Z) : Z := fold_left (fun a c => 10 * a + (c - 48)) ds 0.
Definition value (sg ds : list Z) : Z := match sg with [45] => - number ds | _ => number ds end.
Definition numeral (str ws sg ds : list Z) : Prop := exists rest, str = ws ++ sg ++ ds ++ 0 :: rest /\ Forall white ws /\ sign sg /\ Forall digit ds /\ ds <> [].
(** The shortest digits of a number: no leading zeros, except for zero itself. *)
Definition shortest (ds : list Z) : Prop := Forall digit ds /\ (ds = [48] \/ exists d t, ds = d :: t /\ d <> 48).
