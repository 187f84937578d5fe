(** Times of the reference scale: src/library/ulm/ulmTimes.Mod.
    Scales.Value is a signed integer of 32 bits (ulmScales.Mod 97, ulmTypes.Mod 63); an overflow is undefined in C.
    Times of other scales, units and the storing of times are left out. *)
From Verif Require Import Base.
(** ulmTimes.Mod 52. *)
Definition usecsPerSec : Z := 1000000.
(** MAX(Scales.Value). *)
Definition maxval : Z := 2147483647.
(** ulmTimes.Mod 57-70. *)
Record timeval := { epoch : Z; second : Z; usec : Z }.
(** ulmTimes.Mod 106-137 [Normalize]. *)
Definition Normalize (t : timeval) : res timeval :=
  let* t := (if second t <? 0 then
      let* s := chk 32 (second t + 1) in
      let* s := chk 32 (s + maxval) in
      let* e := chk 32 (epoch t - 1) in
      Ok {| epoch := e; second := s; usec := usec t |}
    else Ok t) in
  if usec t <? 0 then
    let toomanysecs := usec t / usecsPerSec in
    let* (e, s) := (if second t <? toomanysecs then
        let* s := chk 32 (- toomanysecs) in
        let* s := chk 32 (s + maxval) in
        let* s := chk 32 (s + 1) in
        let* s := chk 32 (s + second t) in
        let* e := chk 32 (epoch t - 1) in
        Ok (e, s)
      else let* s := chk 32 (second t - toomanysecs) in Ok (epoch t, s)) in
    Ok {| epoch := e; second := s; usec := usec t mod usecsPerSec |}
  else if usecsPerSec <=? usec t then
    let secs := usec t / usecsPerSec in
    let* (e, s) := (if maxval - second t <=? secs then let* s := chk 32 (second t + secs) in Ok (epoch t, s)
      else
        let* s := chk 32 (maxval - second t) in
        let* s := chk 32 (secs - s) in
        let* e := chk 32 (epoch t + 1) in
        Ok (e, s)) in
    Ok {| epoch := e; second := s; usec := usec t mod usecsPerSec |}
  else Ok t.
(** ulmTimes.Mod 139-158 [SetValue] and 160-168 [CreateAndSet] for a time of the reference scale: the normalized value is stored;
    170-177 [GetValue] gives the stored value. *)
Definition CreateAndSet (e s u : Z) : res timeval := Normalize {| epoch := e; second := s; usec := u |}.
(** ulmTimes.Mod 234-253 [Add]. *)
Definition Add (op1 op2 : timeval) : res timeval :=
  let* e := chk 32 (epoch op1 + epoch op2) in
  let* (e, s) := (if maxval - second op2 <? second op1 then
      let* e := chk 32 (e + 1) in
      let* s := chk 32 (second op1 - maxval) in
      let* s := chk 32 (s - 1) in
      let* s := chk 32 (s + second op2) in
      Ok (e, s)
    else let* s := chk 32 (second op1 + second op2) in Ok (e, s)) in
  let* u := chk 32 (usec op1 + usec op2) in
  if usecsPerSec <? u then
    let* u := chk 32 (u - usecsPerSec) in
    if s =? maxval then let* e := chk 32 (e + 1) in Ok {| epoch := e; second := 0; usec := u |}
    else let* s := chk 32 (s + 1) in Ok {| epoch := e; second := s; usec := u |}
  else Ok {| epoch := e; second := s; usec := u |}.
(** ulmTimes.Mod 255-274 [Sub]. *)
Definition Sub (op1 op2 : timeval) : res timeval :=
  let* e := chk 32 (epoch op1 - epoch op2) in
  let* (e, s) := (if second op2 <=? second op1 then let* s := chk 32 (second op1 - second op2) in Ok (e, s)
    else
      let* e := chk 32 (e - 1) in
      let* s := chk 32 (- second op2) in
      let* s := chk 32 (s + maxval) in
      let* s := chk 32 (s + 1) in
      let* s := chk 32 (s + second op1) in
      Ok (e, s)) in
  let* u := chk 32 (usec op1 - usec op2) in
  if u <? 0 then
    let* u := chk 32 (u + usecsPerSec) in
    if s =? 0 then let* e := chk 32 (e - 1) in Ok {| epoch := e; second := maxval; usec := u |}
    else let* s := chk 32 (s - 1) in Ok {| epoch := e; second := s; usec := u |}
  else Ok {| epoch := e; second := s; usec := u |}.
(** ulmTimes.Mod 290-299 [ReturnVal] and 288-314 [Compare]. *)
Definition ReturnVal (val1 val2 : Z) : Z := if val1 <? val2 then -1 else if val2 <? val1 then 1 else 0.
Definition Compare (op1 op2 : timeval) : Z :=
  if negb (epoch op1 =? epoch op2) then ReturnVal (epoch op1) (epoch op2)
  else if negb (second op1 =? second op2) then ReturnVal (second op1) (second op2)
  else ReturnVal (usec op1) (usec op2).
