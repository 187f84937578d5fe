(** Time stamps and intervals: src/library/ooc/oocTime.Mod.  LONGINT has 32 bits; a sum or difference that does not fit is undefined in the generated C. *)
From Verif Require Import Base.

(** oocTime.Mod 27-30, 46-50 and 61-65: a time stamp or an interval, days and milliseconds. *)
Definition msecPerDay := 86400000.
Definition span : Type := Z * Z.
(** oocTime.Mod 71-77 and 147-153. *)
Definition InitTimeStamp (days msecs : Z) : res span :=
  let* d := chk 32 (days + msecs / msecPerDay) in Ok (d, msecs mod msecPerDay).
Definition InitInterval (days msecs : Z) : res span :=
  let* d := chk 32 (days + msecs / msecPerDay) in Ok (d, msecs mod msecPerDay).
(** oocTime.Mod 79-90: what the system clock says is given. *)
Definition GetTime (sec usec : Z) : res span :=
  let* d := chk 32 (40587 + sec / 86400) in
  let* m := chk 32 (sec mod 86400 * 1000 + usec / 1000) in Ok (d, m).
(** oocTime.Mod 93-101 and 155-163. *)
Definition Add (a b : span) : res span :=
  let* m := chk 32 (snd a + snd b) in
  let* d := chk 32 (fst a + fst b) in
  if m >=? msecPerDay then let* d := chk 32 (d + 1) in Ok (d, m - msecPerDay) else Ok (d, m).
(** oocTime.Mod 103-109 and 165-173. *)
Definition Sub (a b : span) : res span :=
  let* m := chk 32 (snd a - snd b) in
  let* d := chk 32 (fst a - fst b) in
  if m <? 0 then let* d := chk 32 (d - 1) in Ok (d, m + msecPerDay) else Ok (d, m).
(** oocTime.Mod 111-119. *)
Definition Delta (a b : span) : res span :=
  let* m := chk 32 (snd a - snd b) in
  let* d := chk 32 (fst a - fst b) in
  if m <? 0 then let* d := chk 32 (d - 1) in Ok (d, m + msecPerDay) else Ok (d, m).
(** oocTime.Mod 121-137 and 175-191. *)
Definition Cmp (a b : span) : Z :=
  if (fst a >? fst b) || (fst a =? fst b) && (snd a >? snd b) then 1
  else if (fst a =? fst b) && (snd a =? snd b) then 0
  else -1.
