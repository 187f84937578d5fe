(** Standard output: src/runtime/Out.Mod 8-89.  The module variables are a record; [delivered] is what the operating system has
    received.  [acc l] is the number of bytes that write(2) accepts when offered l bytes: Platform.Write
    (Platformunix.Mod 350-355) does not look at it, and Out ignores the error code as well. *)
From Verif Require Import Base ArrZ ArithModel StringsModel.

Record ost := { obuf : list Z; oin : Z; delivered : list Z }.

(** Out.Mod 225-226: module body. *)
Definition oinit : ost := {| obuf := repeat 0 128; oin := 0; delivered := [] |}.

(** Platformunix.Mod 350-355 [Write]. *)
Definition PWrite (acc : Z -> Z) (xs : list Z) (s : ost) : ost :=
  {| obuf := obuf s; oin := oin s; delivered := delivered s ++ firstn (Z.to_nat (acc (zlen xs))) xs |}.

(** Out.Mod 13-18 [Flush]. *)
Definition OFlush (acc : Z -> Z) (s : ost) : ost :=
  let s := if oin s >? 0 then PWrite acc (firstn (Z.to_nat (oin s)) (obuf s)) s else s in
  {| obuf := obuf s; oin := 0; delivered := delivered s |}.

(** Out.Mod 24-29 [Char]. *)
Definition OChar (acc : Z -> Z) (ch : Z) (s : ost) : res ost :=
  let s := if oin s >=? 128 then OFlush acc s else s in
  let* b := setA (obuf s) (oin s) ch in
  let s := {| obuf := b; oin := oin s + 1; delivered := delivered s |} in
  Ok (if ch =? 10 then OFlush acc s else s).

(** Out.Mod 31-48 [Length] and [String]; Length has the loop of Strings.Length.  [ADR(buf[in])] checks the index; MOVE copies l bytes. *)
Definition OString (acc : Z -> Z) (str : list Z) (s : ost) : res ost :=
  let* l := length_loop (S (length str)) str 0 in
  let s := if oin s + l >? 128 then OFlush acc s else s in
  if l >? 128 then Ok (PWrite acc (firstn (Z.to_nat l) str) s)
  else
    let* _ := getA (obuf s) (oin s) in
    Ok {| obuf := firstn (Z.to_nat (oin s)) (obuf s) ++ firstn (Z.to_nat l) str ++ skipn (Z.to_nat (oin s + l)) (obuf s);
          oin := oin s + l; delivered := delivered s |}.

(** Out.Mod 87-89 [Ln]; Platform.NL is the string 0AX (Platformunix.Mod 447-449). *)
Definition OLn (acc : Z -> Z) (s : ost) : res ost :=
  let* s := OString acc [10; 0] s in Ok (OFlush acc s).

(** Out.Mod 51-70 [Int(x, n)], bootstrap/unix-88/Out.c.  [buf]: the local array s of 22 characters with its initial contents. *)
Fixpoint int_digits (fuel : nat) (x : Z) (b : list Z) (i : Z) : res (list Z * Z) :=
  match fuel with
  | O => Fuel
  | S f =>
      if x =? 0 then Ok (b, i)
      else
        let* d := MOD_inline 64 x 10 in
        let* c := CHR_inline (48 + d) in
        let* b := setA b i c in
        let* x := DIV_inline 64 x 10 in
        int_digits f x b (i + 1)
  end.
Fixpoint blanks (fuel : nat) (acc : Z -> Z) (n i : Z) (s : ost) : res ost :=
  match fuel with
  | O => Fuel
  | S f => if n >? i then let* s := OChar acc 32 s in blanks f acc (n - 1) i s else Ok s
  end.
Fixpoint emit_down (fuel : nat) (acc : Z -> Z) (b : list Z) (i : Z) (s : ost) : res ost :=
  match fuel with
  | O => Fuel
  | S f => if i >? 0 then let* c := getA b (i - 1) in let* s := OChar acc c s in emit_down f acc b (i - 1) s else Ok s
  end.
Definition min_digits : list Z := [56; 48; 56; 53; 55; 55; 52; 53; 56; 54; 51; 48; 50; 55; 51; 51; 50; 50; 57].
Definition OInt (acc : Z -> Z) (b : list Z) (x n : Z) (s : ost) : res ost :=
  let negative := x <? 0 in
  let* (b, i) := (if x =? - 2 ^ 63 then
                    Ok (min_digits ++ 0 :: skipn 20 b, 19)
                  else
                    let* x := (if x <? 0 then chk 64 (- x) else Ok x) in
                    let* d := MOD_inline 64 x 10 in
                    let* c := CHR_inline (48 + d) in
                    let* b := setA b 0 c in
                    let* x := DIV_inline 64 x 10 in
                    int_digits 20 x b 1) in
  let* (b, i) := (if negative then let* b := setA b i 45 in Ok (b, i + 1) else Ok (b, i)) in
  let* s := blanks (S (Z.to_nat n)) acc n i s in
  emit_down (S (length b)) acc b i s.

(** Out.Mod 73-85 [Hex(x, n)].  [rot] is SYSTEM.ROT on 64 bits: [ROT _ _ 64] for C, [ROT_wrap] for a machine that takes shift
    counts modulo 64.  x MOD 16 is compiled to [__MASK(x, -16)] = x & 15. *)
Definition ROT_wrap (x n : Z) : res Z := if n =? 0 then Ok x else ROT x n 64.
Fixpoint hex_width (fuel : nat) (x n : Z) : res Z :=
  match fuel with
  | O => Fuel
  | S f =>
      if n <? 16 then let* y := LSH x (- (4 * n)) 64 in if negb (y =? 0) then hex_width f x (n + 1) else Ok n
      else Ok n
  end.
Fixpoint hex_loop (fuel : nat) (acc : Z -> Z) (rot : Z -> Z -> res Z) (x n : Z) (s : ost) : res ost :=
  match fuel with
  | O => Fuel
  | S f =>
      if n >? 0 then
        let* x := rot x 4 in
        let d := Z.land x 15 in
        let* c := (if d <? 10 then CHR_inline (d + 48) else CHR_inline (d - 10 + 65)) in
        let* s := OChar acc c s in
        hex_loop f acc rot x (n - 1) s
      else Ok s
  end.
Definition OHex (acc : Z -> Z) (rot : Z -> Z -> res Z) (x n : Z) (s : ost) : res ost :=
  let n := if n <? 1 then 1 else if n >? 16 then 16 else n in
  let* n := (if x >=? 0 then hex_width 17 x n else Ok n) in
  let* x := rot x (4 * (16 - n)) in
  hex_loop 17 acc rot x n s.
