(** Strings as in the Oakwood guidelines: src/library/ooc/oocOakStrings.Mod. Arrays are shorter than 2^15 (indices have the type INTEGER). *)
From Verif Require Import Base ArrZ.
(** oocOakStrings.Mod 30-40 [Length]. *)
Fixpoint length_loop (f : nat) (s : list Z) (i : Z) : res Z :=
  match f with O => Fuel | S f => let* c := getA s i in if negb (c =? 0) then length_loop f s (i + 1) else Ok i end.
Definition Length (s : list Z) : res Z := length_loop (S (length s)) s 0.
(** oocOakStrings.Mod 73-87 [Append]. *)
Fixpoint append_loop (f : nat) (s dst : list Z) (m dp sp : Z) : res (list Z) :=
  match f with
  | O => Fuel
  | S f =>
    if dp <? m then
      let* c := getA s sp in
      if negb (c =? 0) then let* dst := setA dst dp c in append_loop f s dst m (dp + 1) (sp + 1) else setA dst dp 0
    else setA dst dp 0
  end.
Definition Append (s dst : list Z) : res (list Z) := let* dp := Length dst in append_loop (S (length dst)) s dst (zlen dst - 1) dp 0.
(** oocOakStrings.Mod 105-125 [Replace]. *)
Fixpoint replace_loop (f : nat) (src dst : list Z) (maxDst pos sp : Z) (addNull : bool) : res (list Z) :=
  match f with
  | O => Fuel
  | S f =>
    let* c := getA src sp in
    if negb (c =? 0) && (pos <? maxDst) then
      let* o := getA dst pos in
      let* dst := setA dst pos c in
      replace_loop f src dst maxDst (pos + 1) (sp + 1) (addNull || (o =? 0))
    else if addNull then setA dst pos 0 else Ok dst
  end.
Definition Replace (src : list Z) (pos : Z) (dst : list Z) : res (list Z) := replace_loop (S (length src)) src dst (zlen dst - 1) pos 0 false.
(** oocOakStrings.Mod 127-147 [Extract]. *)
Fixpoint extract_loop (f : nat) (src dst : list Z) (pos n i : Z) : res (list Z) :=
  match f with
  | O => Fuel
  | S f =>
    if i <? n then
      let* c := getA src (pos + i) in
      if negb (c =? 0) then let* dst := setA dst i c in extract_loop f src dst pos n (i + 1) else setA dst i 0
    else setA dst i 0
  end.
Definition Extract (src : list Z) (pos n : Z) (dst : list Z) : res (list Z) :=
  let n := if n >? zlen dst then zlen dst - 1 else n in extract_loop (S (length src)) src dst pos n 0.
(** oocOakStrings.Mod 89-103 [Delete]. *)
Fixpoint delete_loop (f : nat) (s : list Z) (i last n : Z) : res (list Z) :=
  match f with
  | O => Fuel
  | S f => if i <=? last then let* c := getA s (i + n) in let* s := setA s i c in delete_loop f s (i + 1) last n else Ok s
  end.
Definition Delete (s : list Z) (pos n : Z) : res (list Z) :=
  let* lenStr := Length s in
  if pos + n <? lenStr then delete_loop (S (length s)) s pos (lenStr - n) n else setA s pos 0.
(** oocOakStrings.Mod 169-179 [Cap]; CAP is __CAP of SYSTEM.h: the bits of 5FH are kept. *)
Definition CAP (c : Z) : Z := Z.land c 95.
Fixpoint cap_loop (f : nat) (s : list Z) (i : Z) : res (list Z) :=
  match f with O => Fuel | S f => let* c := getA s i in if negb (c =? 0) then let* s := setA s i (CAP c) in cap_loop f s (i + 1) else Ok s end.
Definition Cap (s : list Z) : res (list Z) := cap_loop (S (length s)) s 0.
(** oocOakStrings.Mod 42-71 [Insert]: the loops of lines 59-61 and 67-69. *)
Fixpoint move_loop (f : nat) (dst : list Z) (i pos lenSrc : Z) : res (list Z) :=
  match f with
  | O => Fuel
  | S f => if i >=? pos then let* c := getA dst i in let* dst := setA dst (i + lenSrc) c in move_loop f dst (i - 1) pos lenSrc else Ok dst
  end.
Fixpoint copy_loop (f : nat) (src dst : list Z) (pos i last : Z) : res (list Z) :=
  match f with
  | O => Fuel
  | S f => if i <=? last then let* c := getA src i in let* dst := setA dst (pos + i) c in copy_loop f src dst pos (i + 1) last else Ok dst
  end.
Definition Insert (src : list Z) (pos : Z) (dst : list Z) : res (list Z) :=
  let* lenDst := Length dst in
  let* lenSrc := Length src in
  let maxDst := zlen dst - 1 in
  if pos + lenSrc <? maxDst then
    let* (lenDst, dst) := (if lenDst + lenSrc >? maxDst then let* dst := setA dst (maxDst - lenSrc) 0 in Ok (maxDst - lenSrc, dst) else Ok (lenDst, dst)) in
    let* dst := move_loop (S (length dst)) dst lenDst pos lenSrc in
    copy_loop (S (length src)) src dst pos 0 (lenSrc - 1)
  else
    let* dst := setA dst maxDst 0 in
    copy_loop (S (length src)) src dst pos 0 (maxDst - pos - 1).
(** oocOakStrings.Mod 149-167 [Pos]. *)
Fixpoint pos_loop (f : nat) (pat s : list Z) (pos posPat : Z) : res Z :=
  match f with
  | O => Fuel
  | S f =>
    let* p := getA pat posPat in
    if p =? 0 then Ok (pos - posPat)
    else
      let* c := getA s pos in
      if c =? 0 then Ok (-1)
      else if c =? p then pos_loop f pat s (pos + 1) (posPat + 1)
      else pos_loop f pat s (pos - posPat + 1) 0
  end.
Definition Pos (pat s : list Z) (pos : Z) : res Z := pos_loop (S (length pat) * S (length s)) pat s pos 0.
