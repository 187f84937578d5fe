(** Sets of any size, kept in arrays of SET: src/library/v4/Sets.Mod 8-115, src/library/s3/ethSets.Mod 11-118 (the same
    code) and src/library/ulm/ulmSets.Mod 46-207.
    [b] is the number of elements of SET; [n] the width of the index variables: INTEGER in Sets and ethSets (16 bits with
    32-bit sets, 32 bits with 64-bit sets), INT32 in ulmSets (with SET32).  A word is the list element, a number below 2^b. *)
From Verif Require Import Base ArrZ ArithModel.

(** INC(i): C's [i += 1].  16-bit operands are computed as int and cut off, for int the overflow is undefined. *)
Definition inc (n i : Z) : res Z := if n <? 32 then Ok (wrap_s n (i + 1)) else chk n (i + 1).
(** [x IN s] with [x] already reduced MOD the size (SYSTEM.h 218). *)
Definition inword (b x s : Z) : bool := (0 <=? x) && (x <? b) && Z.testbit s x.
Definition is_empty (s : Z) : bool := s =? 0.

(** The arrays of the caller.  VAR parameters are names of them, and two parameters may be the same array. *)
Notation store := (nat -> list Z) (only parsing).
Definition upd (st : store) (x : nat) (a : list Z) : store := fun y => if Nat.eqb y x then a else st y.

(** Sets.Mod 8-12 and 15-19: WHILE i < LEN(s) DO s[i] := v; INC(i) END. *)
Fixpoint fill_loop (fuel : nat) (n v i : Z) (s : list Z) : res (list Z) :=
  if i <? zlen s then
    match fuel with
    | O => Fuel
    | S k => let* s1 := setA s i v in let* j := inc n i in fill_loop k n v j s1
    end
  else Ok s.
Definition Clear (n : Z) (s : list Z) : res (list Z) := fill_loop (length s) n 0 0 s.
Definition Fill (n b : Z) (s : list Z) : res (list Z) :=
  let* v := SETRNG 0 (b - 1) b in fill_loop (length s) n v 0 s.
(** Sets.Mod 22-24, 27-29, 32-34; ulmSets.Mod 64-77; DIV and MOD round down (C01). *)
Definition Incl (b : Z) (s : list Z) (x : Z) : res (list Z) :=
  let* w := getA s (x / b) in let* v := INCL b w (x mod b) in setA s (x / b) v.
Definition Excl (b : Z) (s : list Z) (x : Z) : res (list Z) :=
  let* w := getA s (x / b) in let* v := EXCL b w (x mod b) in setA s (x / b) v.
Definition In (b : Z) (s : list Z) (x : Z) : res bool :=
  let* w := getA s (x / b) in Ok (inword b (x mod b) w).
(** ulmSets.Mod 79-92: a CharSet has 256 elements. *)
Definition CharIn (b : Z) (s : list Z) (ch : Z) : res bool := In b s ch.
Definition InclChar (b : Z) (s : list Z) (ch : Z) : res (list Z) := Incl b s ch.
Definition ExclChar (b : Z) (s : list Z) (ch : Z) : res (list Z) := Excl b s ch.

(** Sets.Mod 37-46, 73-82, 85-94: the loop of Includes, Equal and Different; [bad] is the test that ends it with FALSE. *)
Fixpoint test_loop (fuel : nat) (n : Z) (bad : Z -> Z -> bool) (i : Z) (s1 s2 : list Z) : res bool :=
  if i <? zlen s1 then
    match fuel with
    | O => Fuel
    | S k =>
        let* u := getA s1 i in let* v := getA s2 i in
        if bad u v then Ok false else let* j := inc n i in test_loop k n bad j s1 s2
    end
  else Ok true.
Definition Includes (n : Z) (s1 s2 : list Z) : res bool :=
  test_loop (length s1) n (fun u v => negb (set_plus u v =? u)) 0 s1 s2.
Definition Equal (n : Z) (s1 s2 : list Z) : res bool :=
  test_loop (length s1) n (fun u v => negb (u =? v)) 0 s1 s2.
Definition Different (n : Z) (s1 s2 : list Z) : res bool :=
  test_loop (length s1) n (fun u v => negb (is_empty (set_times u v))) 0 s1 s2.
(** Sets.Mod 61-70. *)
Fixpoint empty_loop (fuel : nat) (n i : Z) (s : list Z) : res bool :=
  if i <? zlen s then
    match fuel with
    | O => Fuel
    | S k => let* w := getA s i in if negb (is_empty w) then Ok false else let* j := inc n i in empty_loop k n j s
    end
  else Ok true.
Definition Empty (n : Z) (s : list Z) : res bool := empty_loop (length s) n 0 s.
(** Sets.Mod 49-58: the result and [lastElem].  [max := SHORT(LEN(s)) * size] is an INTEGER: the product of 16-bit numbers
    is cut off, that of 32-bit numbers may overflow. *)
Definition max_elem (n b : Z) (s : list Z) : res Z :=
  let l := wrap_s n (zlen s) in if n <? 32 then Ok (wrap_s n (l * b)) else chk n (l * b).
Fixpoint elem_loop (fuel : nat) (n b i max : Z) (s : list Z) (cnt last : Z) : res (Z * Z) :=
  if i <? max then
    match fuel with
    | O => Fuel
    | S k =>
        let* w := getA s (i / b) in
        let* (c, l) := if inword b (i mod b) w then let* c := inc n cnt in Ok (c, i) else Ok (cnt, last) in
        let* j := inc n i in elem_loop k n b j max s c l
    end
  else Ok (cnt, last).
Definition Elements (n b : Z) (s : list Z) (last : Z) : res (Z * Z) :=
  let* max := max_elem n b s in elem_loop (Z.to_nat max) n b 0 max s 0 last.
(** Sets.Mod 97-101, 104-108, 111-115: the loop of Unite, Differ and Intersect. *)
Fixpoint op_loop (fuel : nat) (n : Z) (f : Z -> Z -> Z) (i : Z) (st : store) (x1 x2 x3 : nat) : res store :=
  if i <? zlen (st x1) then
    match fuel with
    | O => Fuel
    | S k =>
        let* u := getA (st x1) i in let* v := getA (st x2) i in
        let* a := setA (st x3) i (f u v) in
        let* j := inc n i in op_loop k n f j (upd st x3 a) x1 x2 x3
    end
  else Ok st.
Definition Unite (n : Z) (st : store) (x1 x2 : nat) : res store :=
  op_loop (length (st x1)) n set_plus 0 st x1 x2 x1.
Definition Differ (n b : Z) (st : store) (x1 x2 : nat) : res store :=
  op_loop (length (st x1)) n (set_minus b) 0 st x1 x2 x1.
Definition Intersect (n : Z) (st : store) (x1 x2 x3 : nat) : res store :=
  op_loop (length (st x1)) n set_times 0 st x1 x2 x3.

(** ulmSets.Mod 46-53. *)
Definition InitSet (n : Z) (s : list Z) : res (list Z) := fill_loop (length s) n 0 0 s.
(** ulmSets.Mod 55-62. *)
Fixpoint compl_loop (fuel : nat) (n b i : Z) (s : list Z) : res (list Z) :=
  if i <? zlen s then
    match fuel with
    | O => Fuel
    | S k => let* w := getA s i in let* s1 := setA s i (set_compl b w) in let* j := inc n i in compl_loop k n b j s1
    end
  else Ok s.
Definition Complement (n b : Z) (s : list Z) : res (list Z) := compl_loop (length s) n b 0 s.
(** ulmSets.Mod 94-140: [set1] and [set2] are value parameters, that is copies; a failed ASSERT is HALT(0). *)
Fixpoint val_loop (fuel : nat) (n : Z) (f : Z -> Z -> Z) (i : Z) (s1 s2 r : list Z) : res (list Z) :=
  if i <? zlen r then
    match fuel with
    | O => Fuel
    | S k =>
        let* u := getA s1 i in let* v := getA s2 i in let* r1 := setA r i (f u v) in
        let* j := inc n i in val_loop k n f j s1 s2 r1
    end
  else Ok r.
Definition binary (n : Z) (f : Z -> Z -> Z) (s1 s2 r : list Z) : res (list Z) :=
  if (zlen r =? zlen s1) && (zlen r =? zlen s2) then val_loop (length r) n f 0 s1 s2 r else Trap 0.
Definition Intersection (n : Z) := binary n set_times.
Definition SymDifference (n : Z) := binary n set_slash.
Definition Union (n : Z) := binary n set_plus.
Definition Difference (n b : Z) := binary n (set_minus b).
(** ulmSets.Mod 142-166 and 168-186: the first loop, then the words only one set has.  The index goes on where the loop
    before ended; after the second loop it is the length of the first set if that was not reached before. *)
Fixpoint both_loop (fuel : nat) (n : Z) (bad : Z -> Z -> bool) (i : Z) (s1 s2 : list Z) : res (option Z) :=
  if (i <? zlen s1) && (i <? zlen s2) then
    match fuel with
    | O => Fuel
    | S k =>
        let* u := getA s1 i in let* v := getA s2 i in
        if bad u v then Ok None else let* j := inc n i in both_loop k n bad j s1 s2
    end
  else Ok (Some i).
Definition uEqual (n : Z) (s1 s2 : list Z) : res bool :=
  let* o := both_loop (length s1) n (fun u v => negb (u =? v)) 0 s1 s2 in
  match o with
  | None => Ok false
  | Some i =>
      let* e := empty_loop (length s1) n i s1 in
      if (e : bool) then empty_loop (length s2) n (if i <? zlen s1 then zlen s1 else i) s2 else Ok false
  end.
Definition uSubset (n b : Z) (s1 s2 : list Z) : res bool :=
  let* o := both_loop (length s1) n (fun u v => negb (is_empty (set_minus b u v))) 0 s1 s2 in
  match o with None => Ok false | Some i => empty_loop (length s1) n i s1 end.
(** ulmSets.Mod 188-207. *)
Fixpoint card_word (fuel : nat) (n b i w card : Z) : res Z :=
  if i <=? b - 1 then
    match fuel with
    | O => Fuel
    | S k =>
        let* c := if inword b i w then inc n card else Ok card in
        let* j := inc n i in card_word k n b j w c
    end
  else Ok card.
Fixpoint card_loop (fuel : nat) (n b i : Z) (s : list Z) (card : Z) : res Z :=
  if i <? zlen s then
    match fuel with
    | O => Fuel
    | S k =>
        let* w := getA s i in let* c := card_word (Z.to_nat b) n b 0 w card in
        let* j := inc n i in card_loop k n b j s c
    end
  else Ok card.
Definition Card (n b : Z) (s : list Z) : res Z := card_loop (length s) n b 0 s 0.
