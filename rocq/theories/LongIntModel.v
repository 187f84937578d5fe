(** Long integers: numbers of many digits in an array. *)
From Verif Require Import Base ArrZ.

Section LongInts.
(** The sizes of INTEGER and LONGINT in bits, OPM.Mod 330-335. *)
Variable sI sL : Z.
(** oocLongInts.Mod 24. *)
Definition B : Z := 32768.
(** A conversion by SHORT, and the assignment of an INTEGER expression. *)
Definition short (x : Z) : Z := wrap_s sI x.
(** oocLongInts.Mod 30-36 [MinDigit]; the loop from [min] on.  The array is an open list: the length, 170 in the module, plays no role. *)
Fixpoint min_loop (fuel : nat) (w : list Z) (min l : Z) : res Z :=
  match fuel with
  | O => Fuel
  | S f => if min <? l then let* d := getA w min in if d =? 0 then min_loop f w (min + 1) l else Ok min else Ok min
  end.
Definition MinDigit (w : list Z) : res Z := min_loop (S (length w)) w 1 (zlen w - 1).
(** oocLongInts.Mod 38-47 [MultDigit]; one round per unit of fuel. *)
Fixpoint mult_loop (fuel : nat) (w : list Z) (digit k i min : Z) : res (list Z) :=
  match fuel with
  | O => Fuel
  | S f =>
      let* d := getA w i in
      let* p := chk sL (d * digit) in
      let* t := chk sL (p + k) in
      let* w := setA w i (short (t mod B)) in
      let i := i - 1 in
      if i =? min then Ok w else mult_loop f w digit (t / B) i min
  end.
Definition MultDigit (w : list Z) (digit k : Z) : res (list Z) :=
  let* m := MinDigit w in mult_loop (S (length w)) w digit k (zlen w - 1) (m - 2).
(** oocLongInts.Mod 49-58 [AddDigit]. *)
Fixpoint add_loop (fuel : nat) (w : list Z) (k i min : Z) : res (list Z) :=
  match fuel with
  | O => Fuel
  | S f =>
      let* d := getA w i in
      let* t := chk sL (d + k) in
      let* w := setA w i (short (t mod B)) in
      let i := i - 1 in
      if i =? min then Ok w else add_loop f w (t / B) i min
  end.
Definition AddDigit (w : list Z) (k : Z) : res (list Z) :=
  let* m := MinDigit w in add_loop (S (length w)) w k (zlen w - 1) (m - 2).
(** oocLongInts.Mod 60-69 [DivDigit]: the array and [r].  DIV and MOD are modelled for positive divisors only. *)
Fixpoint div_loop (fuel : nat) (w : list Z) (digit r j m : Z) : res (list Z * Z) :=
  match fuel with
  | O => Fuel
  | S f =>
      let* d := getA w j in
      let* p := chk sL (r * B) in
      let* t := chk sL (p + d) in
      let* w := setA w j (short (t / digit)) in
      let r := t mod digit in
      let j := j + 1 in
      if j >? m then Ok (w, r) else div_loop f w digit r j m
  end.
Definition DivDigit (w : list Z) (digit : Z) : res (list Z * Z) :=
  if digit <=? 0 then UB else
  let* m := MinDigit w in div_loop (S (length w)) w digit 0 (m - 1) (zlen w - 1).
(** oocLongInts.Mod 71-84 [TenPower]. *)
Fixpoint times (n : nat) (f : list Z -> res (list Z)) (w : list Z) : res (list Z) :=
  match n with O => Ok w | S n => let* w := f w in times n f w end.
Definition TenPower (w : list Z) (power : Z) : res (list Z) :=
  if power >? 0 then
    let* w := times (Z.to_nat (power / 4)) (fun w => MultDigit w 10000 0) w in
    times (Z.to_nat (power mod 4)) (fun w => MultDigit w 10 0) w
  else if power <? 0 then
    let* power := chk (Z.max 32 sI) (- power) in
    let power := short power in
    let* w := times (Z.to_nat (power / 4)) (fun w => let* (w, _) := DivDigit w 10000 in Ok w) w in
    times (Z.to_nat (power mod 4)) (fun w => let* (w, _) := DivDigit w 10 in Ok w) w
  else Ok w.
(** oocLongInts.Mod 86-98 [BPower]; the FOR statements. *)
Fixpoint copy_up (n : nat) (w : list Z) (i power : Z) : res (list Z) :=
  match n with O => Ok w | S n => let* d := getA w (i + power) in let* w := setA w i d in copy_up n w (i + 1) power end.
Fixpoint copy_down (n : nat) (w : list Z) (i power : Z) : res (list Z) :=
  match n with O => Ok w | S n => let* d := getA w i in let* w := setA w (i + power) d in copy_down n w (i - 1) power end.
Fixpoint clear (n : nat) (w : list Z) (i : Z) : res (list Z) :=
  match n with O => Ok w | S n => let* w := setA w i 0 in clear n w (i + 1) end.
Definition BPower (w : list Z) (power : Z) : res (list Z) :=
  let lx := zlen w in
  if power >? 0 then
    let* w := copy_up (Z.to_nat (lx - 1 - power)) w 1 power in
    clear (Z.to_nat power) w (lx - power)
  else if power <? 0 then
    let* power := chk (Z.max 32 sI) (- power) in
    let power := short power in
    let* w := copy_down (Z.to_nat (lx - 1 - power)) w (lx - 1 - power) power in
    clear (Z.to_nat power) w 1
  else Ok w.
End LongInts.
