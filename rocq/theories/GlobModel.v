(** Comparison with a pattern: src/library/ooc/oocStrings2.Mod Match, on the model of oocStrings.Length (OstrModel.v). *)
From Verif Require Import Base ArrZ OstrModel.
(** oocStrings2.Mod 63-91 [RecMatch]: the loop and the recursion in one function; every step moves on in the pattern.
    [tries] is the FOR statement 78-82; [n] is the number of its remaining rounds. *)
Fixpoint tries (body : Z -> res bool) (n : nat) (i : Z) : res bool :=
  match n with
  | O => Ok false
  | S n => let* b := body i in if (b : bool) then Ok true else tries body n (i + 1)
  end.
Fixpoint RecMatch (f : nat) (lenSource lenPattern : Z) (src pat : list Z) (posSrc posPat : Z) : res bool :=
  match f with
  | O => Fuel
  | S f =>
    if (posSrc =? lenSource) && (posPat =? lenPattern) then Ok true
    else if posPat =? lenPattern then Ok false
    else
      let* p := getA pat posPat in
      if p =? 42 then
        if posPat =? lenPattern - 1 then Ok true
        else tries (fun i => RecMatch f lenSource lenPattern src pat i (posPat + 1)) (Z.to_nat (lenSource - posSrc + 1)) posSrc
      else if negb (p =? 63) then
        let* c := getA src posSrc in
        if negb (p =? c) then Ok false else RecMatch f lenSource lenPattern src pat (posSrc + 1) (posPat + 1)
      else RecMatch f lenSource lenPattern src pat (posSrc + 1) (posPat + 1)
  end.
(** oocStrings2.Mod 52-96 [Match]. *)
Definition Match (pat s : list Z) : res bool :=
  let* lenPattern := Length pat in
  let* lenSource := Length s in
  RecMatch (S (length pat)) lenSource lenPattern s pat 0 0.
