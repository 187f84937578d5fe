(** Adding streams modulo 2: src/library/ulm/ulmCipherOps.Mod. Streams are the bytes still to be read, or written so far; errors of the output are left out. *)
From Verif Require Import Base.
(** ulmCipherOps.Mod 35-41 [XorByte]: both bytes as signed numbers, lengthened to 32 bits, added as sets, cut to a byte. *)
Definition XorByte (b1 b2 : Z) : Z := Z.lxor (wrap_s 8 b1) (wrap_s 8 b2) mod 256.
(** ulmCipherOps.Mod 43-67 [XorStream]: the loop; the result, the rests of the inputs and the output. A byte of in1 is read before in2 is found to be at its end. *)
Fixpoint xor_loop (in1 in2 out : list Z) (wholeStream : bool) (length : Z) : res (bool * list Z * list Z * list Z) :=
  if wholeStream || (length >? 0) then
    match in1 with
    | [] => Ok (wholeStream, [], in2, out)
    | b1 :: in1 =>
      match in2 with
      | [] => Ok (wholeStream, in1, [], out)
      | b2 :: in2 => let* n := chk 32 (length - 1) in xor_loop in1 in2 (out ++ [XorByte b1 b2]) wholeStream n
      end
    end
  else Ok (true, in1, in2, out).
Definition XorStream (in1 in2 out : list Z) (length : Z) : res (bool * list Z * list Z * list Z) := xor_loop in1 in2 out (length <? 0) length.
