(** Exchange of values over streams: src/library/ulm/ulmNetIO.Mod.
    A stream is the bytes that are in it: writing appends, reading takes from the front (errors of the device are left out).
    Machines are little endian (ulmTypes.Mod 71); Types.Int32 and Types.Set have four bytes. *)
From Verif Require Import Base.
(** ulmNetIO.Mod 110-134; readChar, readInteger, readReal and the procedures to write these are left out, they are treated like others. *)
Record iface := { readByte : list Z -> option (Z * list Z); readLongInt : list Z -> option (Z * list Z); readSet : list Z -> option (Z * list Z); readString : Z -> list Z -> option (list Z * list Z);
  readBoolean : list Z -> option (bool * list Z); readShortInt : list Z -> option (Z * list Z); readLongReal : list Z -> option (list Z * list Z); readConstString : list Z -> option (list Z * list Z);
  writeBoolean : bool -> list Z -> list Z; writeShortInt : Z -> list Z -> list Z; writeLongReal : list Z -> list Z -> list Z; writeConstString : list Z -> list Z -> list Z;
  writeByte : Z -> list Z -> list Z; writeLongInt : Z -> list Z -> list Z; writeSet : Z -> list Z -> list Z; writeString : list Z -> list Z -> list Z }.
(** A stream with the interface in its discipline, if there is one. *)
Record stream := { bytes : list Z; attached : option iface }.
(** ulmNetIO.Mod 191-202 [AttachInterface]; other streams it is forwarded to are left out. *)
Definition AttachInterface (s : stream) (i : option iface) : stream := {| bytes := bytes s; attached := i |}.
(** ulmNetIO.Mod 147-153 [Seek]: its parameter disc is a value parameter, the variable of the caller keeps its value; here the result and this variable. *)
Definition Seek (s : stream) (disc : option iface) : bool * option iface :=
  let result := match attached s with Some _ => true | None => false end in (result, disc).
(** The pattern of lines 236-530: the local variable disc is NIL at the beginning; disc.if of NIL is not allowed. *)
Definition through {A} (s : stream) (use : iface -> res A) (otherwise : res A) : res A :=
  let (found, disc) := Seek s None in
  if found then match disc with Some i => use i | None => UB end else otherwise.
(** Memory of an integer or set of four bytes, least significant byte first. *)
Definition mem4 (v : Z) : list Z := [v mod 256; (v / 256) mod 256; (v / 256 / 256) mod 256; (v / 256 / 256 / 256) mod 256].
Definition val4 (l : list Z) : Z := match l with [a; b; c; d] => a + 256 * (b + 256 * (c + 256 * d)) | _ => 0 end.
(** ulmNetIO.Mod 155-165 [Swap]. *)
Fixpoint swap_loop (f : nat) (a : list Z) (i j : Z) : res (list Z) :=
  match f with
  | O => Fuel
  | S f =>
    if i <? j then
      let* tmp := getA a i in
      let* aj := getA a j in
      let* a := setA a i aj in
      let* a := setA a j tmp in
      swap_loop f a (i + 1) (j - 1)
    else Ok a
  end.
Definition Swap (a : list Z) : res (list Z) := swap_loop (S (length a)) a 0 (Z.of_nat (length a) - 1).
(** ulmNetIO.Mod 167-187 [BitSwap]: the inner loop and the assignment of one byte; the outer loop treats the bytes one after the other. *)
Fixpoint bit_loop (f : nat) (old new bit : Z) : res Z :=
  match f with
  | O => Fuel
  | S f => if negb (old =? 0) then bit_loop f (Z.shiftr old 1) (if Z.odd old then new + bit else new) (Z.shiftr bit 1) else Ok new
  end.
Fixpoint BitSwap (a : list Z) : res (list Z) :=
  match a with [] => Ok [] | b :: a => let* new := bit_loop 9 b 0 128 in let* a := BitSwap a in Ok (new mod 256 :: a) end.
(** Streams.Read of four bytes: None (FALSE) if there are less. *)
Definition read4 (l : list Z) : option (list Z * list Z) := match l with a :: b :: c :: d :: l => Some ([a; b; c; d], l) | _ => None end.
Definition with_bytes (s : stream) (l : list Z) : stream := {| bytes := l; attached := attached s |}.
Definition answer {A} (s : stream) (r : option (A * list Z)) : res (option A * stream) := match r with Some (x, l) => Ok (Some x, with_bytes s l) | None => Ok (None, with_bytes s []) end.
(** ulmNetIO.Mod 236-245 [ReadByte] (lines 247-256 ReadChar is alike). *)
Definition ReadByte (s : stream) : res (option Z * stream) :=
  through s (fun i => answer s (readByte i (bytes s))) (answer s (match bytes s with b :: l => Some (b, l) | [] => None end)).
(** ulmNetIO.Mod 412-421 [WriteByte] (lines 423-432 WriteChar is alike). *)
Definition WriteByte (s : stream) (b : Z) : res stream := through s (fun i => Ok (with_bytes s (writeByte i b (bytes s)))) (Ok (with_bytes s (bytes s ++ [b]))).
(** ulmNetIO.Mod 296-310 [ReadLongInt] (ReadInteger is alike). *)
Definition ReadLongInt (s : stream) : res (option Z * stream) :=
  through s (fun i => answer s (readLongInt i (bytes s)))
    (match read4 (bytes s) with Some (m, l) => let* m := Swap m in Ok (Some (wrap_s 32 (val4 m)), with_bytes s l) | None => Ok (None, with_bytes s []) end).
(** ulmNetIO.Mod 470-482 [WriteLongInt] (WriteInteger is alike). *)
Definition WriteLongInt (s : stream) (v : Z) : res stream :=
  through s (fun i => Ok (with_bytes s (writeLongInt i v (bytes s)))) (let* m := Swap (mem4 v) in Ok (with_bytes s (bytes s ++ m))).
(** ulmNetIO.Mod 334-348 [ReadSet]; a set is the number with its bits. *)
Definition ReadSet (s : stream) : res (option Z * stream) :=
  through s (fun i => answer s (readSet i (bytes s)))
    (match read4 (bytes s) with Some (m, l) => let* m := BitSwap m in Ok (Some (val4 m), with_bytes s l) | None => Ok (None, with_bytes s []) end).
(** ulmNetIO.Mod 506-518 [WriteSet]. *)
Definition WriteSet (s : stream) (v : Z) : res stream :=
  through s (fun i => Ok (with_bytes s (writeSet i v (bytes s)))) (let* m := BitSwap (mem4 v) in Ok (with_bytes s (bytes s ++ m))).
(** ulmNetIO.Mod 350-367 [ReadString]: the loop of lines 359-363; [n] is LEN(string), the result is what is before the 0X. *)
Fixpoint string_loop (l : list Z) (n : Z) (index : Z) (string : list Z) : list Z * list Z :=
  match l with
  | [] => (string, [])
  | ch :: l => if negb (ch =? 0) then (if index + 1 <? n then string_loop l n (index + 1) (string ++ [ch]) else string_loop l n index string) else (string, l)
  end.
Definition ReadString (s : stream) (n : Z) : res (option (list Z) * stream) :=
  through s (fun i => answer s (readString i n (bytes s))) (answer s (Some (string_loop (bytes s) n 0 []))).
(** ulmNetIO.Mod 520-530 [WriteString]; [str] is what is before the 0X. *)
Definition WriteString (s : stream) (str : list Z) : res stream := through s (fun i => Ok (with_bytes s (writeString i str (bytes s)))) (Ok (with_bytes s (bytes s ++ str ++ [0]))).
(** ulmNetIO.Mod 258-267 [ReadBoolean]: one byte, other values than 0 are TRUE. *)
Definition ReadBoolean (s : stream) : res (option bool * stream) :=
  through s (fun i => answer s (readBoolean i (bytes s))) (answer s (match bytes s with b :: l => Some (negb (b =? 0), l) | [] => None end)).
(** ulmNetIO.Mod 434-443 [WriteBoolean]. *)
Definition WriteBoolean (s : stream) (b : bool) : res stream := through s (fun i => Ok (with_bytes s (writeBoolean i b (bytes s)))) (Ok (with_bytes s (bytes s ++ [if b then 1 else 0]))).
(** ulmNetIO.Mod 269-278 [ReadShortInt]: one byte as signed number (Types.Int8). *)
Definition ReadShortInt (s : stream) : res (option Z * stream) :=
  through s (fun i => answer s (readShortInt i (bytes s))) (answer s (match bytes s with b :: l => Some (wrap_s 8 b, l) | [] => None end)).
(** ulmNetIO.Mod 445-454 [WriteShortInt]. *)
Definition WriteShortInt (s : stream) (v : Z) : res stream := through s (fun i => Ok (with_bytes s (writeShortInt i v (bytes s)))) (Ok (with_bytes s (bytes s ++ [v mod 256]))).
(** Streams.Read and ReadPart (ulmStreams.Mod 1059-1130) of [n] bytes: FALSE if there are less. *)
Definition readn (n : Z) (l : list Z) : option (list Z * list Z) := if Z.of_nat (length l) <? n then None else Some (firstn (Z.to_nat n) l, skipn (Z.to_nat n) l).
(** ulmNetIO.Mod 323-332 [ReadLongReal]; a real number is its eight bytes in memory (Types.Real32 is LONGREAL as well, ulmTypes.Mod 64-65). *)
Definition ReadLongReal (s : stream) : res (option (list Z) * stream) := through s (fun i => answer s (readLongReal i (bytes s))) (answer s (readn 8 (bytes s))).
(** ulmNetIO.Mod 495-504 [WriteLongReal]. *)
Definition WriteLongReal (s : stream) (m : list Z) : res stream := through s (fun i => Ok (with_bytes s (writeLongReal i m (bytes s)))) (Ok (with_bytes s (bytes s ++ m))).
(** ulmConstStrings.Mod 332-335: the characters before the first 0X. *)
Fixpoint before0 (l : list Z) : list Z := match l with [] => [] | c :: l => if negb (c =? 0) then c :: before0 l else [] end.
(** ulmNetIO.Mod 369-404 [ReadConstStringD]; a constant string is its bytes (C96). Streams.Copy gives FALSE if there are less bytes; Streams.ReadPart also if the number is negative. *)
Definition ReadConstString (s : stream) : res (option (list Z) * stream) :=
  through s (fun i => answer s (readConstString i (bytes s)))
    (let* (r, s) := ReadLongInt s in
     match r with
     | None => Ok (None, s)
     | Some length =>
       if length >=? 512 then answer s (readn length (bytes s))
       else if length <? 0 then Ok (None, s)
       else answer s (match readn length (bytes s) with Some (stringbuf, l) => Some (before0 (stringbuf ++ [0]), l) | None => None end)
     end).
(** ulmNetIO.Mod 532-549 [WriteConstString]; the length of a string is a 32-bit number. *)
Definition WriteConstString (s : stream) (string : list Z) : res stream :=
  through s (fun i => Ok (with_bytes s (writeConstString i string (bytes s)))) (let* s := WriteLongInt s (Z.of_nat (length string)) in Ok (with_bytes s (bytes s ++ string))).
