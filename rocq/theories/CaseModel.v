(** CASE statements: entering the labels, and the switch statement written for them. *)
From Verif Require Import Base LitModel.

(** The form of a type or constant: Int (with the size of the type) or Char; OPT.Char..OPT.Int are the forms of case expressions (OPP.Mod 722). *)
Inductive form := Char | Int (size : Z).
(** A constant: its form and value.  The size of an integer constant is that of the smallest type (OPB.Mod 106). *)
Inductive const := CChar (c : Z) | CInt (n : Z).
Definition value (c : const) : Z := match c with CChar n => n | CInt n => n end.
(** A label x or x..y. *)
Definition label := (const * option const)%type.
(** CaseTable (OPP.Mod 8-11): an array of OPM.MaxCases = 128 pairs low, high. *)
Definition table := list (Z * Z).
Definition MaxCases := 128.
Definition MaxCaseRange := 512.
(** OPM.Mod 171 [Longint]: the lower 32 bits. *)
Definition Longint (n : Z) : Z := wrap_s 32 n.
(** OPP.Mod 679-682: errors 61 and 60; FALSE means an error. *)
Definition label_type (t : form) (c : const) : res bool :=
  match c, t with
  | CInt n, Int size => let* s := SetIntType n in Ok (negb (size <? s))
  | CInt _, Char => Ok false
  | CChar _, Char => Ok true
  | CChar _, Int _ => Ok false
  end.
(** OPP.Mod 683-689: the bounds of a label, and whether there was no error. *)
Definition bounds (l : label) : Z * Z * bool :=
  let xval := Longint (value (fst l)) in
  match snd l with
  | Some y =>
      let yval := Longint (value y) in
      let ok := match fst l, y with CInt _, CInt _ => true | CChar _, CChar _ => true | _, _ => false end in
      if yval <? xval then (xval, xval, false) else (xval, yval, ok)
  | None => (xval, xval, true)
  end.
(** OPP.Mod 693-701: from index i on; the result tells whether there was no error 62. *)
Fixpoint enter (i : nat) (tab : table) (xval yval : Z) : table * bool :=
  match i with
  | O => (set_nth 0 (xval, yval) tab, true)
  | S j =>
      let '(low, high) := nth j tab (0, 0) in
      if low <=? yval then (set_nth i (xval, yval) tab, negb (high >=? xval)) else enter j (set_nth i (low, high) tab) xval yval
  end.
(** OPP.Mod 673-710 [CaseLabelList]: the new n and table, the ranges kept for the labels (intval, intval2), and whether there was no error. *)
Fixpoint CaseLabelList (t : form) (ls : list label) (n : Z) (tab : table) : res (Z * table * list (Z * Z) * bool) :=
  match ls with
  | [] => Ok (n, tab, [], true)
  | l :: ls =>
      let* ok1 := label_type t (fst l) in
      let '(xval, yval, ok2) := bounds l in
      let '(tab, n, ok3) := if n <? MaxCases then (let '(tab, ok) := enter (Z.to_nat n) tab xval yval in (tab, n + 1, ok)) else (tab, n, false) in
      let* r := CaseLabelList t ls n tab in
      let '(n, tab, rs, ok4) := r in
      Ok (n, tab, (value (fst l), yval) :: rs, ok1 && ok2 && ok3 && ok4)
  end.
(** OPP.Mod 716-747 [CasePart]: the ranges of each branch, and whether there was no error.  The subtraction of line 734 is one of LONGINTs of 32 bits. *)
Fixpoint branches (t : form) (bs : list (list label)) (n : Z) (tab : table) : res (Z * table * list (list (Z * Z)) * bool) :=
  match bs with
  | [] => Ok (n, tab, [], true)
  | b :: bs =>
      let* r := CaseLabelList t b n tab in
      let '(n, tab, rs, ok) := r in
      let* q := branches t bs n tab in
      let '(n, tab, rss, ok') := q in
      Ok (n, tab, rs :: rss, ok && ok')
  end.
Definition CasePart (t : form) (bs : list (list label)) (tab : table) : res (list (list (Z * Z)) * bool) :=
  let* r := branches t bs 0 tab in
  let '(n, tab, rss, ok) := r in
  if n >? 0 then
    let low := fst (nth 0 tab (0, 0)) in
    let high := snd (nth (Z.to_nat (n - 1)) tab (0, 0)) in
    let* range := chk 32 (high - low) in
    Ok (rss, ok && negb (range >? MaxCaseRange))
  else Ok (rss, ok).
(** OPV.Mod 693-703: the case labels written for a range. *)
Fixpoint labels (fuel : nat) (low high : Z) : res (list Z) :=
  match fuel with
  | O => Fuel
  | S f => if low <=? high then let* ls := labels f (low + 1) high in Ok (low :: ls) else Ok []
  end.
Fixpoint range_labels (fuel : nat) (rs : list (Z * Z)) : res (list Z) :=
  match rs with
  | [] => Ok []
  | (low, high) :: rs => let* a := labels fuel low high in let* b := range_labels fuel rs in Ok (a ++ b)
  end.
(** OPV.Mod 683-720 [CaseStat]: the labels of each branch; each branch ends with a break. *)
Fixpoint CaseStat (fuel : nat) (rss : list (list (Z * Z))) : res (list (list Z)) :=
  match rss with
  | [] => Ok []
  | rs :: rss => let* a := range_labels fuel rs in let* b := CaseStat fuel rss in Ok (a :: b)
  end.
(** The switch statement of C: the branch with the label, or the default. *)
Fixpoint switch (v : Z) (bs : list (list Z)) (k : nat) : option nat :=
  match bs with
  | [] => None
  | b :: bs => if existsb (Z.eqb v) b then Some k else switch v bs (S k)
  end.
