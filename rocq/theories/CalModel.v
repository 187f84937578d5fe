(** Calendars: src/library/s3/ethDates.Mod and src/library/ooc/oocJulianDay.Mod.  INTEGER has 16 bits and LONGINT 32 (option -O2); a value assigned to an
    INTEGER, passed as one or shortened by SHORT is reduced to 16 bits.  DIV and MOD by constants are floored (C01). *)
From Verif Require Import Base.

Definition i16 (x : Z) : Z := wrap_s 16 x.
(** ethDates.Mod 11-12. *)
Definition zeroY := 1900.
Definition firstY := 1901.
(** ethDates.Mod 19-21. *)
Definition IsLeapYear (year : Z) : bool := (year mod 4 =? 0) && (negb (year mod 100 =? 0) || (year mod 400 =? 0)).
(** ethDates.Mod 23-30. *)
Definition LastDay (year month : Z) : Z :=
  if (month <? 8) && Z.odd month || (month >? 7) && negb (Z.odd month) then 31
  else if month =? 2 then if IsLeapYear year then 29 else 28
  else 30.
(** ethDates.Mod 186-189: the array A. *)
Definition A : list Z := [0; 31; 59; 90; 120; 151; 181; 212; 243; 273; 304; 334; 365].
Definition Anth (i : Z) : Z := nth (Z.to_nat i) A 0.
(** ethDates.Mod 189: the loops that fill T; when the inner one starts, [j] is [A[i]]. *)
Definition T : list Z := flat_map (fun i => repeat (Z.of_nat i + 1) (Z.to_nat (Anth (Z.of_nat i + 1) - Anth (Z.of_nat i)))) (seq 0 12).
(** ethDates.Mod 33-41. *)
Definition NumberOfDays (date : Z) : Z :=
  let y := i16 (i16 (date / 512) + zeroY - firstY) in
  let m := i16 (date / 32) mod 16 in
  let num := y * 365 + y / 4 + Anth ((m - 1) mod 12) + date mod 32 - 1 in
  if IsLeapYear (i16 (firstY + y)) && (m >? 2) then num + 1 else num.
(** ethDates.Mod 44-53; ASH as multiplication (C03), and the index of T is below 365. *)
Definition NumberOfDaysToDate (days : Z) : res Z :=
  let* s := chk 32 (days + 307) in
  let d := if s mod 1461 =? 0 then 2 else 1 in
  let days := days - s / 1461 in
  let y := firstY + days / 365 in
  let '(y, m, d) :=
    if firstY >? y then (zeroY, 1, 1)
    else let M := days mod 365 in let m := nth (Z.to_nat M) T 0 in (y, m, M - Anth (m - 1) + d) in
  Ok (((y - zeroY) * 16 + m) * 32 + d).
(** ethDates.Mod 57-63. *)
Definition ToDate (year month day : Z) : Z :=
  let month := 1 + (month - 1) mod 12 in
  let d := LastDay year month in
  let day := 1 + (day - 1) mod d in
  ((year - zeroY) * 16 + month) * 32 + day.
(** ethDates.Mod 66-68. *)
Definition ToTime (hour min sec : Z) : Z := (hour mod 24 * 64 + min mod 60) * 64 + sec mod 60.
(** ethDates.Mod 72-76, 79-82. *)
Definition ToYMD (date : Z) : Z * Z * Z := (i16 (i16 (date / 512) + zeroY), i16 (date / 32 mod 16), i16 (date mod 32)).
Definition ToHMS (time : Z) : Z * Z * Z := (i16 (time / 4096), i16 (time / 64 mod 64), i16 (time mod 64)).
(** ethDates.Mod 85-90, 93-98. *)
Definition DayOfWeek (date : Z) : Z := i16 ((NumberOfDays date + 1) mod 7).
Definition DaysOfMonth (date : Z) : Z := LastDay (i16 (date / 512 + zeroY)) (i16 (date / 32 mod 16)).
(** ethDates.Mod 102-111. *)
Definition AddYear (date years : Z) : Z :=
  let '(y, m, d) := ToYMD date in
  if firstY <=? y + years then
    let d := if IsLeapYear y && (m =? 2) && (d =? 29) && negb (IsLeapYear (i16 (y + years))) then 28 else d in
    ToDate (i16 (y + years)) m d
  else date.
(** ethDates.Mod 113-129. *)
Definition AddMonth (date months : Z) : Z :=
  let '(y, m, d) := ToYMD date in
  let m := i16 (m + i16 (months - 1)) in
  let y := i16 (y + m / 12) in
  if firstY <=? y then
    let m := m mod 12 + 1 in
    let d :=
      if m =? 2 then if (d >? 29) && IsLeapYear y then 29 else if (d >? 28) && negb (IsLeapYear y) then 28 else d
      else if (d >? 30) && ((m <? 8) && negb (Z.odd m) || (m >? 7) && Z.odd m) then 30 else d in
    ToDate y m d
  else date.
(** ethDates.Mod 131-134. *)
Definition AddDay (date days : Z) : res Z :=
  let* num := chk 32 (NumberOfDays date + days) in
  NumberOfDaysToDate num.
(** ethDates.Mod 138-141, 143-149, 151-160. *)
Definition AddHour (time hour : Z) : Z := let '(h, m, s) := ToHMS time in ToTime (i16 ((h + hour) mod 24)) m s.
Definition carry (h m : Z) : Z * Z := if (m <? 0) || (m >=? 60) then (i16 ((h + m / 60) mod 24), i16 (m mod 60)) else (h, m).
Definition AddMinute (time min : Z) : Z :=
  let '(h, m, s) := ToHMS time in
  let m := i16 (m + min) in
  let '(h, m) := carry h m in ToTime h m s.
Definition AddSecond (time sec : Z) : Z :=
  let '(h, m, s) := ToHMS time in
  let s := i16 (s + sec) in
  let '(h, m, s) := if (s <? 0) || (s >=? 60) then let '(h, m) := carry h (i16 (m + i16 (s / 60))) in (h, m, i16 (s mod 60)) else (h, m, s) in
  ToTime h m s.
(** ethDates.Mod 163-177: the new time and date. *)
Definition AddTime (time date sec : Z) : res (Z * Z) :=
  let '(hh, mm, ss) := ToHMS time in
  let* s := chk 32 (sec + ss) in
  let* (h, m, s, date) :=
    if (s <? 0) || (s >=? 60) then
      let m := s / 60 + mm in
      let s := s mod 60 in
      if (m <? 0) || (m >=? 60) then
        let h := m / 60 + hh in
        let m := m mod 60 in
        if (h <? 0) || (h >=? 24) then let* date := AddDay date (i16 (h / 24)) in Ok (h mod 24, m, s, date) else Ok (h, m, s, date)
      else Ok (hh, m, s, date)
    else Ok (hh, mm, s, date) in
  Ok (ToTime (i16 h) (i16 m) (i16 s), date).

(** oocJulianDay.Mod.  The numbers are LONGREAL: a Julian date at 0000 UTC is a whole number minus one half, and the model keeps the whole number.  The
    products and quotients are exact here: 365.25 n is exact in binary; 30.6001 n and the quotients of JDToDate either are whole numbers represented
    exactly or differ from a whole number by more than the error of rounding.  [ug] is UseGregorian and [s] is startGregor + 1/2. *)
(** oocJulianDay.Mod 38-54. *)
Definition DateToJD (ug : bool) (s day month year : Z) : Z :=
  let '(year, month) := if month <? 3 then (i16 (year - 1), month + 12) else (year, month) in
  let C := if ug then let A := year / 100 in let B := A / 4 in 2 - A + B else 0 in
  let JD := C + day + 1461 * (year + 4716) / 4 + 306001 * (month + 1) / 10000 - 1524 in
  if ug && (JD >=? s) then JD else JD - C.
(** oocJulianDay.Mod 56-62: the zero basis is 2400000.5. *)
Definition DateToDays (ug : bool) (s day month year : Z) : Z := DateToJD ug s day month year - 2400001.
(** oocJulianDay.Mod 72-91. *)
Definition JDToDate (ug : bool) (s jd : Z) : Z * Z * Z :=
  let B := if ug && (jd >=? s) then let W := (4 * jd - 7468865) / 146097 in jd + 1525 + W - W / 4 else jd + 1524 in
  let year := i16 ((20 * B - 2442) / 7305) in
  let D := 1461 * year / 4 in
  let month := wrap_s 8 (i16 ((B - D) * 10000 / 306001)) in
  let day := wrap_s 8 (i16 (B - D - 306001 * month / 10000)) in
  let month := if month >? 13 then month - 13 else month - 1 in
  let year := if month <? 3 then i16 (year - 4715) else i16 (year - 4716) in
  (day, month, year).
(** oocJulianDay.Mod 93-98. *)
Definition DaysToDate (ug : bool) (s jd : Z) : Z * Z * Z := JDToDate ug s (jd + 2400001).
(** oocJulianDay.Mod 107-124, 126-130. *)
Definition SetGregorianStart (day month year : Z) : Z := DateToJD false 0 day month year.
Definition default := SetGregorianStart 3 9 1752.
